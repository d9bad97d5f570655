(** neorl/evolu/hclpso.py.  Conventions as in Swarm_Model.v: draws are arbitrary rationals, joblib
    keeps the order of the particles, decoding of grid parameters is part of the arbitrary [fit]. *)
From Coq Require Import List Arith ZArith QArith Qround Bool.
From Verif Require Import Base Space_Model Opt_Model Pop_Model Swarm_Model.
Import ListNotations.
Open Scope nat_scope.

(** Draws of UpdateParticles for one particle: the two friends and the toss of each coordinate, the
    coordinate that must learn from a friend (first entry of the random permutation). *)
Record fdraw : Type := FDraw { fd_1 : nat -> Q; fd_2 : nat -> Q; fd_toss : nat -> Q; fd_forced : nat }.
(** Draws of one particle in one generation. *)
Record cdraw : Type := CDraw { cd_r1 : nat -> Q; cd_r2 : nat -> Q; cd_vd : vdraw; cd_f : fdraw }.
(** Draws of one particle at the start: position, velocity, ensure_discrete, friends. *)
Record cinit : Type := CInit { ci_pos : nat -> Q; ci_vel : nat -> Q; ci_vd : vdraw; ci_f : fdraw }.

(** Row i of Positions, vel, pbest_pos, pbest_val, obj_func_slope, fri_best_pos. *)
Record part : Type := Part { q_x : list Q; q_v : list Q; q_px : list Q; q_pv : Q; q_sl : nat; q_fri : list Q }.

Section C.
Context (expf : Q -> Q) (m : mode) (fit : list Q -> Q) (ds : list dimn) (mt : imethod) (g1 g2 : nat).
Local Notation n := (g1 + g2).

(** hclpso.py:252-256, Pc of particle i (all coordinates alike): 0.25*(e^(10 i/(n-1)) - 1)/(e^10 - 1). *)
Definition hc_pc (i : nat) : Q :=
  (0 + (1#4) * (expf (qnat i / qnat (n - 1) * 10) - expf 0) / (expf (1 * 10) - expf 0))%Q.

(** v_max of a coordinate, hclpso.py:266-267; v_min is its opposite. *)
Definition hc_vmax (d : dimn) : Q := ((d_hi d - d_lo d) * (1#5))%Q.

(** hclpso.py:303-305: the three products; a value equal to a limit becomes 0. *)
Definition hc_clamp (d : dimn) (v : Q) : Q :=
  ((if Qltb v (- hc_vmax d) then - hc_vmax d else 0) + (if Qltb (hc_vmax d) v then hc_vmax d else 0)
   + (if Qltb v (hc_vmax d) && Qltb (- hc_vmax d) v then v else 0))%Q.

(** The index ceil(friend_num * u) - 1; -1 (when u = 0) addresses the last row. *)
Definition hc_friend (num : nat) (u : Q) : nat :=
  let c := Qceiling (qnat num * u) in
  if (c <=? 0)%Z then n - 1 else Z.to_nat (c - 1).

(** UpdateParticles, hclpso.py:195-222, row [i] of fri_best_pos. *)
Definition hc_learn (sw : list part) (num : nat) (d : fdraw) (i : nat) : option (list Q) :=
  let own j := Qltb (hc_pc i) (fd_toss d j) in
  let all := forallb own (seq 0 (length ds)) in
  let own j := own j && negb (all && (j =? fd_forced d mod length ds)) in
  traverse (fun j (_ : dimn) =>
    let i1 := hc_friend num (fd_1 d j) in
    let i2 := hc_friend num (fd_2 d j) in
    let* p1 := nth_error sw i1 in
    let* p2 := nth_error sw i2 in
    let k := if own j then i else if Qltb (q_pv p1) (q_pv p2) then i1 else i2 in
    let* p := nth_error sw k in
    nth_error (q_px p) j) 0 ds.

(** Both calls of UpdateParticles: [num2] is friend_num of the second group, [chk] is check_slope. *)
Definition hc_update (num2 : nat) (chk : bool) (dr : nat -> fdraw) (sw : list part) : option (list part) :=
  traverse (fun i p =>
    if negb chk || (5 <? q_sl p)
    then let* f := hc_learn sw (if i <? g1 then g1 else num2) (dr i) i in
         Some (Part (q_x p) (q_v p) (q_px p) (q_pv p) (if chk then 0 else q_sl p) f)
    else Some p) 0 sw.

(** hclpso.py:259-262. *)
Definition hc_lin (a b : Q) (k ngen : nat) : Q := (a - qnat k * b / qnat ngen)%Q.

(** hclpso.py:300-330: new velocity and position of one particle. *)
Definition hc_move (ngen k : nat) (gx : list Q) (dr : nat -> cdraw) (i : nat) (p : part) : option part :=
  let d := dr i in
  let w := hc_lin (99#100) (79#100) k ngen in
  let* v := traverse (fun j dm =>
      let* x := nth_error (q_x p) j in
      let* v := nth_error (q_v p) j in
      let* f := nth_error (q_fri p) j in
      let* b := nth_error gx j in
      let delta := if i <? g1 then (hc_lin 3 (3#2) k ngen * cd_r1 d j * (f - x))%Q
                   else (hc_lin (5#2) 2 k ngen * cd_r1 d j * (f - x) + hc_lin (1#2) (-2) k ngen * cd_r2 d j * (b - x))%Q in
      Some (hc_clamp dm (w * v + delta))) 0 ds in
  let* x := settle expf (anneal1 k ngen) mt (cd_vd d) ds (map2 Qplus (q_x p) v) in
  Some (Part x v (q_px p) (q_pv p) (q_sl p) (q_fri p)).

(** hclpso.py:342-349: pbest and slope of one particle after the evaluation. *)
Definition hc_best1 (p : part) : part :=
  let f := pt_score m fit ds (q_x p) in
  if Qltb f (q_pv p) then Part (q_x p) (q_v p) (q_x p) f 0 (q_fri p)
  else Part (q_x p) (q_v p) (q_px p) (q_pv p) (S (q_sl p)) (q_fri p).

(** Ghosts: [hc_first] the points of the initial evaluation, [hc_log] those evaluated since. *)
Record hc_state : Type := HcSt {
  hc_sw : list part; hc_g : list Q * Q; hc_best : option (list Q * Q); hc_last : list (list Q * Q);
  hc_local : list Q; hc_global : list Q; hc_first : list (list Q); hc_log : list (list Q) }.

(** One generation, hclpso.py:291-372. *)
Definition hc_gen (ngen : nat) (drs : nat -> nat -> cdraw) (k : nat) (st : hc_state) : option hc_state :=
  let* sw1 := traverse (hc_move ngen k (fst (hc_g st)) (drs k)) 0 (hc_sw st) in
  let xs := map q_x sw1 in
  let fits := map (pt_score m fit ds) xs in
  let sw2 := map hc_best1 sw1 in
  let gb := fold_left (fun b p => if Qltb (q_pv p) (snd b) then (q_px p, q_pv p) else b) sw2 (hc_g st) in
  let* sw3 := hc_update (n - 1) true (fun i => cd_f (drs k i)) sw2 in
  let best := track (hc_best st) (combine xs fits) in
  let* '(_, bf) := best in
  let* '(_, lo) := argmin fits in
  Some (HcSt sw3 gb best (combine xs fits) (hc_local st ++ [as_min m lo]) (hc_global st ++ [as_min m bf])
          (hc_first st) (hc_log st ++ map (pt_arg ds) xs)).

(** hclpso.py:264-288: the swarm the search starts with. *)
Definition hc_start (di : nat -> cinit) : option hc_state :=
  let* sw0 := traverse (fun i (_ : nat) =>
      let d := di i in
      let* v0 := traverse (fun j dm => Some (d_lo dm + (d_hi dm - d_lo dm) * ci_pos d j)%Q) 0 ds in
      let* x := settle expf 1 mt (ci_vd d) ds v0 in
      let* v := traverse (fun j dm => Some (- hc_vmax dm + (hc_vmax dm - - hc_vmax dm) * ci_vel d j)%Q) 0 ds in
      Some (Part x v x (pt_score m fit ds x) 0 [])) 0 (seq 0 n) in
  let xs := map q_x sw0 in
  let* '(i, gv) := argmin (map (pt_score m fit ds) xs) in
  let* gx := nth_error xs i in
  if n =? 1 then None (* Pc is NaN *) else
  let* sw := hc_update n false (fun i => ci_f (di i)) sw0 in
  Some (HcSt sw (gx, gv) None [] [] [] (map (pt_arg ds) xs) []).

Record hc_result : Type := HcRes {
  hcr_x : list Q; hcr_y : Q; hcr_hl : list Q; hcr_hg : list Q; hcr_pop : list (list Q); hcr_pf : list Q;
  hcr_first : list (list Q); hcr_log : list (list Q) }.

(** HCLPSO.evolute, hclpso.py:224-411.  [x0] is checked for its length and type (its type check is
    C13's subject and left out) and stored, but the stored positions are then overwritten. *)
Definition hc_evolute (ngen : nat) (di : nat -> cinit) (drs : nat -> nat -> cdraw) (x0 : option (list (list Q))) : option hc_result :=
  let ok := match x0 with Some (x :: l) => length (x :: l) =? n | _ => true end in
  if negb ok then None else
  let* s0 := hc_start di in
  let* st := gens (hc_gen ngen drs) 0 ngen s0 in
  let* '(x, f) := hc_best st in
  Some (HcRes x (as_min m f) (hc_local st) (hc_global st) (map fst (hc_last st)) (map (fun p => as_min m (snd p)) (hc_last st))
          (hc_first st) (hc_log st)).
End C.
