(** neorl/hybrid/epso.py.  Conventions as in HCLPSO_Model.v: draws are arbitrary rationals, joblib keeps the
    order of the particles, decoding of grid parameters is part of the arbitrary [fit].  Rows of the
    swarm are the records [part] of HCLPSO_Model.v (position, velocity, pbest, slope, friends' point). *)
From Coq Require Import List Arith ZArith QArith Qround Bool.
From Verif Require Import Base Space_Model Opt_Model Pop_Model Swarm_Model HCLPSO_Model.
Import ListNotations.
Open Scope nat_scope.

(** Draws of one particle in one generation: the strategy, the factors of the terms of the velocity, the
    coin and size of HPSO's new velocities, the factors of LIPS, UpdateParticles, ensure_discrete. *)
Record edraw : Type := EDraw { ed_prob : Q; ed_r1 : nat -> Q; ed_r2 : nat -> Q; ed_r3 : nat -> Q;
  ed_coin : nat -> Q; ed_size : nat -> Q; ed_fi : nat -> nat -> Q; ed_f : fdraw; ed_vd : vdraw }.
(** Draws of one particle at the start: position, velocity, ensure_discrete, friends. *)
Record einit : Type := EInit { ei_u : nat -> Q; ei_k : nat -> nat; ei_vel : nat -> Q; ei_vd : vdraw; ei_f : fdraw }.

(** gbest_pos: an array of its own (epso.py:286, 382) or a view of row [i] of pbest_pos (510, 653). *)
Inductive gref : Type := Gown (x : list Q) | Grow (i : nat).

(** pk, rk, success_mem, failure_mem: the names are unbound before the first use. *)
Record emem : Type := EMem { em_pk : list Q; em_rk : list Q; em_succ : list nat; em_fail : list nat }.

(** [l[s] = l[s] + 1]. *)
Definition bump (l : list nat) (s : nat) : list nat := set_nth l s (S (nth s l 0)).
Definition qsum (l : list Q) : Q := fold_left Qplus l 0%Q.

Section E.
Context (expf : Q -> Q) (m : mode) (fit : list Q -> Q) (ds : list dimn) (mt : imethod) (g1 g2 : nat).
Local Notation n := (g1 + g2).
Local Notation dim := (length ds).

(** epso.py:320-322, Pc of particle i (all coordinates alike): 0.5*(e^(10 i/(n-1)) - 1)/(e^10 - 1). *)
Definition ep_pc (i : nat) : Q :=
  (0 + (1#2) * (expf (qnat i / qnat (n - 1) * 10) - expf 0) / (expf (1 * 10) - expf 0))%Q.

(** v_max of a coordinate, epso.py:273-277; v_min is its opposite. *)
Definition ep_vmax (d : dimn) : Q := ((d_hi d - d_lo d) * (1#2))%Q.

(** epso.py:359-361, 481-483, 625-627: a value equal to a limit becomes 0. *)
Definition ep_clamp (d : dimn) (v : Q) : Q :=
  ((if Qltb v (- ep_vmax d) then - ep_vmax d else 0) + (if Qltb (ep_vmax d) v then ep_vmax d else 0)
   + (if Qltb v (ep_vmax d) && Qltb (- ep_vmax d) v then v else 0))%Q.

(** UpdateParticles, epso.py:220-232, row [i] of fri_best_pos. *)
Definition ep_learn (sw : list part) (num : nat) (d : fdraw) (i : nat) : option (list Q) :=
  let own j := Qltb (ep_pc i) (fd_toss d j) in
  let all := forallb own (seq 0 dim) in
  let own j := own j && negb (all && (j =? fd_forced d mod dim)) in
  traverse (fun j (_ : dimn) =>
    let i1 := hc_friend g1 g2 num (fd_1 d j) in
    let i2 := hc_friend g1 g2 num (fd_2 d j) in
    let* p1 := nth_error sw i1 in
    let* p2 := nth_error sw i2 in
    let k := if own j then i else if Qltb (q_pv p1) (q_pv p2) then i1 else i2 in
    let* p := nth_error sw k in
    nth_error (q_px p) j) 0 ds.

(** UpdateParticles of row [i], epso.py:213-235; [chk] is check_slope. *)
Definition ep_update (num : nat) (chk : bool) (sw : list part) (d : fdraw) (i : nat) (p : part) : option part :=
  if negb chk || (5 <? q_sl p)
  then let* f := ep_learn sw num d i in
       Some (Part (q_x p) (q_v p) (q_px p) (q_pv p) (if chk then 0 else q_sl p) f)
  else Some p.

(** Clamping, new position, repair (epso.py:359-368, 481-487, 625-631). *)
Definition ep_settle (ngen k : nat) (d : edraw) (p : part) (v : list Q) : option part :=
  let* v := traverse (fun j dm => let* c := nth_error v j in Some (ep_clamp dm c)) 0 ds in
  let* x := settle expf (anneal1 k ngen) mt (ed_vd d) ds (map2 Qplus (q_x p) v) in
  Some (Part x v (q_px p) (q_pv p) (q_sl p) (q_fri p)).

(** Group 1, epso.py:355-368. *)
Definition ep_move1 (ngen k : nat) (sw : list part) (d : edraw) (i : nat) (p : part) : option part :=
  let* p := ep_update g1 true sw (ed_f d) i p in
  let* v := traverse (fun j (_ : dimn) =>
      let* x := nth_error (q_x p) j in
      let* v := nth_error (q_v p) j in
      let* f := nth_error (q_fri p) j in
      Some (hc_lin (9#10) (5#10) k ngen * v + hc_lin 3 (3#2) k ngen * ed_r1 d j * (f - x))%Q) 0 ds in
  ep_settle ngen k d p v.

(** Classic PSO, epso.py:420-421 (563-564). *)
Definition ep_v0 (ngen k : nat) (gt : list Q) (d : edraw) (p : part) : option (list Q) :=
  traverse (fun j (_ : dimn) =>
    let* x := nth_error (q_x p) j in let* v := nth_error (q_v p) j in
    let* b := nth_error (q_px p) j in let* g := nth_error gt j in
    Some (hc_lin (9#10) (7#10) k ngen * v
          + (hc_lin (5#2) 2 k ngen * ed_r1 d j * (b - x) + hc_lin (1#2) (-2) k ngen * ed_r2 d j * (g - x)))%Q) 0 ds.

(** FDR-PSO, epso.py:427-440 (571-584): the ratio of one other particle in one coordinate. *)
Definition ep_ratio (pv px rv rx : Q) : Q :=
  let dis := qabs (px - rx) in
  let z := Qeq_bool dis 0 in
  let fe := (pv - rv)%Q in
  let fe := (fe - (if z then 1 else 0) * fe)%Q in
  let dis := (dis + (if z then 1 else 0))%Q in (fe / dis)%Q.
Definition ep_v1 (ngen k : nat) (sw : list part) (gt : list Q) (d : edraw) (p : part) : option (list Q) :=
  traverse (fun j (_ : dimn) =>
    let* x := nth_error (q_x p) j in let* v := nth_error (q_v p) j in
    let* b := nth_error (q_px p) j in let* g := nth_error gt j in
    let* rs := traverse (fun _ r => let* rx := nth_error (q_px r) j in Some (ep_ratio (q_pv p) b (q_pv r) rx)) 0 (firstn g2 sw) in
    let* '(fid, _) := argmax rs in
    let* r := nth_error sw fid in
    let* nb := nth_error (q_px r) j in
    Some (hc_lin (9#10) (7#10) k ngen * v
          + (1 * ed_r1 d j * (b - x) + 1 * ed_r2 d j * (g - x) + 2 * ed_r3 d j * (nb - x)))%Q) 0 ds.

(** HPSO, epso.py:447-455 (591-599). *)
Definition qsign (q : Q) : Q := if Qltb 0 q then 1%Q else if Qltb q 0 then (- (1))%Q else 0%Q.
Definition ep_v2 (ngen k : nat) (gt : list Q) (d : edraw) (p : part) : option (list Q) :=
  traverse (fun j dm =>
    let* x := nth_error (q_x p) j in
    let* b := nth_error (q_px p) j in let* g := nth_error gt j in
    let v := (hc_lin (5#2) 2 k ngen * ed_r1 d j * (b - x) + hc_lin (1#2) (-2) k ngen * ed_r2 d j * (g - x))%Q in
    let re := (d_hi dm - qnat k * ((9#10) * d_hi dm) / qnat ngen)%Q in
    let v := if Qeq_bool v 0
             then if Qltb (ed_coin d j) (1#2) then (ed_size d j * re)%Q else (- ed_size d j * re)%Q
             else v in
    Some (qsign v * qmin2 (qabs v) (d_hi dm))%Q) 0 ds.

(** LIPS, epso.py:462-468 (606-612).  The norm is replaced by its square (same order); equal distances are
    kept in the order of the particles; with two particles the shapes do not fit; factors that add up to
    0 in a coordinate give NaN in the code, 0 here. *)
Definition sqdist (a b : list Q) : Q := qsum (map2 (fun u w => ((u - w) * (u - w))%Q) a b).
Definition ep_near (sw : list part) (i : nat) (p : part) : option (list part) :=
  let dist := map (fun r => sqdist (q_x p) (q_px r)) sw in
  let dist := set_nth dist i (qlist_max dist) in
  let idx := firstn 3 (map fst (sort_asc snd (combine (seq 0 (length sw)) dist))) in
  let* rows := traverse (fun _ j => nth_error sw j) 0 idx in
  match rows with
  | [a; b; c] => Some [a; b; c]
  | [a] => Some [a; a; a]
  | _ => None
  end.
Definition ep_v3 (sw : list part) (d : edraw) (i : nat) (p : part) : option (list Q) :=
  let* near := ep_near sw i p in
  traverse (fun j (_ : dimn) =>
    let* x := nth_error (q_x p) j in let* v := nth_error (q_v p) j in
    let fi a := ((41#10) / 3 * ed_fi d a j)%Q in
    let* terms := traverse (fun a r => let* b := nth_error (q_px r) j in Some (fi a * b)%Q) 0 near in
    let tot := qsum (map fi [0; 1; 2]) in
    let fip := (qsum terms / tot)%Q in
    Some ((7298#10000) * (v + tot * (fip - x)))%Q) 0 ds.

(** CLPSO with gbest, epso.py:476-478 (620-622), after UpdateParticles. *)
Definition ep_v4 (ngen k : nat) (gt : list Q) (d : edraw) (p : part) : option (list Q) :=
  traverse (fun j (_ : dimn) =>
    let* x := nth_error (q_x p) j in let* v := nth_error (q_v p) j in
    let* f := nth_error (q_fri p) j in let* g := nth_error gt j in
    Some (hc_lin (9#10) (7#10) k ngen * v
          + (hc_lin (5#2) 2 k ngen * ed_r1 d j * (f - x) + hc_lin (1#2) (-2) k ngen * ed_r2 d j * (g - x)))%Q) 0 ds.

(** epso.py:413-474 (556-618): the first interval [rk[s], rk[s+1]) that holds the draw.  (None: no interval; in the
    code the strategy of the previous particle would be kept, C63_choice shows it does not happen.) *)
Fixpoint ep_pick (s : nat) (rk : list Q) (u : Q) : option nat :=
  match rk with
  | a :: (b :: _) as r => if Qle_bool a u && Qltb u b then Some s else ep_pick (S s) r u
  | _ => None
  end.

(** Group 2, epso.py:413-489 (and all particles in the second phase, 556-632): new row and strategy. *)
Definition ep_move2 (ngen k : nat) (sw : list part) (gt : list Q) (rk : list Q) (d : edraw) (i : nat) (p : part)
  : option (part * nat) :=
  let* s := ep_pick 0 rk (ed_prob d) in
  let* '(p, v) :=
    (match s with
     | 0 => let* v := ep_v0 ngen k gt d p in Some (p, v)
     | 1 => let* v := ep_v1 ngen k sw gt d p in Some (p, v)
     | 2 => let* v := ep_v2 ngen k gt d p in Some (p, v)
     | 3 => let* v := ep_v3 sw d i p in Some (p, v)
     | _ => let* p := ep_update g1 true sw (ed_f d) i p in let* v := ep_v4 ngen k gt d p in Some (p, v)
     end) in
  let* p := ep_settle ngen k d p v in
  Some (p, s).

(** epso.py:393-411 (535-554): the probabilities in generation [k].  The code runs this at every particle;
    from the second one on it changes nothing.  [flag] is update_flag. *)
Definition ep_refresh (k : nat) (flag : bool) (mem : option emem) : option (emem * bool) :=
  if k <=? 1
  then Some (EMem (repeat (1#5)%Q 5) (map (fun i => qnat i / 5)%Q (seq 0 6)) (repeat 0 5) (repeat 0 5), flag)
  else
    let* mm := mem in
    if flag
    then
      let sk := map2 (fun a b => (qnat a / qnat (if a + b =? 0 then 1 else a + b) + (1#100))%Q) (em_succ mm) (em_fail mm) in
      let pk := map (fun q => (q / qsum sk)%Q) sk in
      Some (EMem pk (0%Q :: acc_from Qplus 0 pk) (repeat 0 5) (repeat 0 5), false)
    else Some (mm, false).

(** What the evaluation loop changes: pbest (in the rows), gbest, success_mem and failure_mem; [eu_ev] is a
    ghost: particle, strategy, improved. *)
Record eust : Type := EUst { eu_sw : list part; eu_ref : gref; eu_gv : Q; eu_succ : list nat; eu_fail : list nat;
  eu_ev : list (nat * nat * bool) }.

(** epso.py:372-383, one particle of group 1. *)
Definition ep_upd1 (u : eust) (i : nat) : option eust :=
  let* p := nth_error (eu_sw u) i in
  let f := pt_score m fit ds (q_x p) in
  let p' := if Qltb f (q_pv p) then Part (q_x p) (q_v p) (q_x p) f 0 (q_fri p)
            else Part (q_x p) (q_v p) (q_px p) (q_pv p) (S (q_sl p)) (q_fri p) in
  let sw := set_nth (eu_sw u) i p' in
  let '(ref, gv) := if Qltb (q_pv p') (eu_gv u) then (Gown (q_px p'), q_pv p') else (eu_ref u, eu_gv u) in
  Some (EUst sw ref gv (eu_succ u) (eu_fail u) (eu_ev u)).

(** epso.py:496-513 (639-656), one particle that used strategy [s]. *)
Definition ep_upd2 (u : eust) (i s : nat) : option eust :=
  let* p := nth_error (eu_sw u) i in
  let f := pt_score m fit ds (q_x p) in
  let imp := Qltb f (q_pv p) in
  let '(px, pv) := if imp then (q_x p, f) else (q_px p, q_pv p) in
  let succ := if imp then bump (eu_succ u) s else eu_succ u in
  let fail := if imp then eu_fail u else bump (eu_fail u) s in
  let sl := if (s =? 4) && Qltb f pv then 0 else S (q_sl p) in
  let sw := set_nth (eu_sw u) i (Part (q_x p) (q_v p) px pv sl (q_fri p)) in
  let '(ref, gv) := if Qltb pv (eu_gv u) then (Grow i, pv) else (eu_ref u, eu_gv u) in
  Some (EUst sw ref gv succ fail (eu_ev u ++ [(i, s, imp)])).

(** Loops over the particles. *)
Fixpoint ep_loop1 (u : eust) (l : list nat) : option eust :=
  match l with [] => Some u | i :: r => let* u := ep_upd1 u i in ep_loop1 u r end.
Fixpoint ep_loop2 (u : eust) (l : list (nat * nat)) : option eust :=
  match l with [] => Some u | (i, s) :: r => let* u := ep_upd2 u i s in ep_loop2 u r end.

(** The array gbest_pos stands for. *)
Definition ep_gx (sw : list part) (r : gref) : option (list Q) :=
  match r with Gown x => Some x | Grow i => let* p := nth_error sw i in Some (q_px p) end.

(** Ghosts: [ep_log] the points evaluated, [ep_evs] the events of each generation. *)
Record ep_state : Type := EpSt {
  ep_sw : list part; ep_ref : gref; ep_gv : Q; ep_mem : option emem; ep_flag : bool; ep_fc : nat;
  ep_best : option (list Q * Q); ep_local : list Q; ep_global : list Q; ep_rates : list (list Q);
  ep_log : list (list Q); ep_evs : list (list (nat * nat * bool)) }.

(** Phase 1, epso.py:351-516: memory, loop state after it. *)
Definition ep_explore (ngen k : nat) (gt : list Q) (drs : nat -> edraw) (st : ep_state) : option (option emem * bool * eust) :=
  let* sw1 := traverse (fun i p => if i <? g1 then ep_move1 ngen k (ep_sw st) (drs i) i p else Some p) 0 (ep_sw st) in
  let* u1 := ep_loop1 (EUst sw1 (ep_ref st) (ep_gv st) [] [] []) (seq 0 g1) in
  if g2 =? 0 then Some (ep_mem st, ep_flag st, u1)
  else
    let* '(mm, fl) := ep_refresh k (ep_flag st) (ep_mem st) in
    let* mv := traverse (fun i p => if i <? g1 then Some (p, 0) else ep_move2 ngen k (eu_sw u1) gt (em_rk mm) (drs i) i p) 0 (eu_sw u1) in
    let* u2 := ep_loop2 (EUst (map fst mv) (eu_ref u1) (eu_gv u1) (em_succ mm) (em_fail mm) [])
                 (skipn g1 (combine (seq 0 n) (map snd mv))) in
    Some (Some (EMem (em_pk mm) (em_rk mm) (eu_succ u2) (eu_fail u2)), fl, u2).

(** Phase 2, epso.py:525-659. *)
Definition ep_exploit (ngen k : nat) (gt : list Q) (drs : nat -> edraw) (st : ep_state) : option (option emem * bool * eust) :=
  let* '(mm, fl) := ep_refresh k (ep_flag st) (ep_mem st) in
  let* mv := traverse (fun i p => ep_move2 ngen k (ep_sw st) gt (em_rk mm) (drs i) i p) 0 (ep_sw st) in
  let* u2 := ep_loop2 (EUst (map fst mv) (ep_ref st) (ep_gv st) (em_succ mm) (em_fail mm) []) (combine (seq 0 n) (map snd mv)) in
  Some (Some (EMem (em_pk mm) (em_rk mm) (eu_succ u2) (eu_fail u2)), fl, u2).

(** One generation, epso.py:340-683.  [par]: ncores > 1, then fit_worker counts in the worker processes and
    self.fitcount stays.  [lp] is LP (modulo 0 raises). *)
Definition ep_gen (par : bool) (lp ngen : nat) (drs : nat -> nat -> edraw) (k : nat) (st : ep_state) : option ep_state :=
  let* gt := ep_gx (ep_sw st) (ep_ref st) in
  let first := Qle_bool (qnat (ep_fc st)) ((9#10) * qnat (ngen * n + n)) in
  let* '(mm, fl, u) := (if first then ep_explore ngen k gt (drs k) st else ep_exploit ngen k gt (drs k) st) in
  if lp =? 0 then None else
  let fl := if (k + 1) mod lp =? 0 then true else fl in
  let* pk := (let* m0 := mm in Some (em_pk m0)) in
  let* gx := ep_gx (eu_sw u) (eu_ref u) in
  let xs := map q_x (eu_sw u) in
  let* '(_, lo) := argmin (map (pt_score m fit ds) xs) in
  Some (EpSt (eu_sw u) (eu_ref u) (eu_gv u) mm fl (if par then ep_fc st else ep_fc st + n)
          (Some (gx, eu_gv u)) (ep_local st ++ [as_min m lo]) (ep_global st ++ [as_min m (eu_gv u)]) (ep_rates st ++ [pk])
          (ep_log st ++ map (pt_arg ds) xs) (ep_evs st ++ [eu_ev u])).

(** epso.py:249-333: start positions, velocities, first evaluation, friends. *)
Definition ep_start (par : bool) (x0 : option (list (list Q))) (di : nat -> einit) : option ep_state :=
  let* pos := (match x0 with
               | Some (x :: l) => if length (x :: l) =? n then Some (x :: l) else None
               | _ => Some (map (fun i => gen_indv ds (ei_u (di i)) (ei_k (di i))) (seq 0 n))
               end) in
  let* sw0 := traverse (fun i x =>
      let* v := traverse (fun j dm => Some (- ep_vmax dm + (ep_vmax dm - - ep_vmax dm) * ei_vel (di i) j)%Q) 0 ds in
      let* x := settle expf 1 mt (ei_vd (di i)) ds x in
      Some (Part x v x (pt_score m fit ds x) 0 [])) 0 pos in
  let xs := map q_x sw0 in
  let* '(i, gv) := argmin (map (pt_score m fit ds) xs) in
  let* gx := nth_error xs i in
  if n =? 1 then None (* Pc is NaN *) else
  let* sw := traverse (fun i p => ep_update (if i <? g1 then g1 else n) false sw0 (ei_f (di i)) i p) 0 sw0 in
  Some (EpSt sw (Gown gx) gv None false (if par then 0 else n) None [] [] [] (map (pt_arg ds) xs) []).

Record ep_result : Type := EpRes {
  epr_x : list Q; epr_y : Q; epr_hl : list Q; epr_hg : list Q; epr_pop : list (list Q); epr_pf : list Q;
  epr_rates : list (list Q); epr_log : list (list Q); epr_evs : list (list (nat * nat * bool)) }.

(** EPSO.evolute, epso.py:238-727.  The type check of x0 is C13's subject and left out. *)
Definition ep_evolute (par : bool) (lp ngen : nat) (x0 : option (list (list Q))) (di : nat -> einit) (drs : nat -> nat -> edraw)
  : option ep_result :=
  let* s0 := ep_start par x0 di in
  let* st := gens (ep_gen par lp ngen drs) 0 ngen s0 in
  let* '(x, f) := ep_best st in
  Some (EpRes x (as_min m f) (ep_local st) (ep_global st) (map q_x (ep_sw st))
          (map (fun p => as_min m (pt_score m fit ds (q_x p))) (ep_sw st)) (ep_rates st) (ep_log st) (ep_evs st)).
End E.
