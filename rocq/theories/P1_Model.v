(** Model of PESA: neorl/hybrid/pesa.py with its three methods neorl/hybrid/pesacore/es.py (ESMod),
    sa.py (SAMod) and pso.py (PSOMod), and the replay memory (pesacore/er.py, modelled in
    ER_Model.v).

    Vectors live in the encoded numeric space (pesa.py 168-180); decoding of grid variables
    (fit_worker, pesa.py 183-195, and lines 395-398) is part of the arbitrary fitness function.
    No list that the memory holds is changed in place by any of the three methods (they work on
    copies: es.py 353-354, 370, 377; sa.py 163, 179, 191; pso.py 138), so vectors are plain values.
    Pools and processes are order-preserving maps; with [ncores > 3] each method runs in a process
    of its own, so what it changes in its own object is not seen afterwards.  Numbers are exact;
    exp, powers and temperatures are arbitrary; printing, case ids and timing are left out.
    An exception is [None]. *)
From Coq Require Import List Arith ZArith QArith Bool.
From Verif Require Import Base Space_Model ER_Model Opt_Model ES_Model PSO_Model SA_Model P2_Model.
Import ListNotations.
Open Scope nat_scope.

(** The labels 'na', 'sanext', 'sabest', 'es', 'pso' of memory samples (pesa.py 248, 432-436). *)
Inductive p1_label : Type := Wna | Wsanext | Wsabest | Wes | Wpso.
Definition p1_label_eqb (a b : p1_label) : bool :=
  match a, b with Wna, Wna | Wsanext, Wsanext | Wsabest, Wsabest | Wes, Wes | Wpso, Wpso => true | _, _ => false end.

(** Constructor arguments, pesa.py 80-181 (those that matter here).  [p1_wc] is the constriction
    factor of pso.py 79-81 (irrational in general: arbitrary); [p1_chi j] the perturbation
    probability of chain [j] (sa.py 75-81: a scalar, or a list of one value per chain). *)
Record p1_par : Type := P1Par {
  p1_dims : list dimn; p1_npop : nat; p1_muarg : option nat; p1_alpha0 : Q; p1_alpha1 : Q; p1_backdoor : Q;
  p1_cxpb : Q; p1_mutpb : Q; p1_c1 : Q; p1_c2 : Q; p1_mech : speed_mech; p1_wc : Q; p1_chi : nat -> Q;
  p1_ncores : nat }.

(** pesa.py 107-115: chains (and workers per method), and whether methods run in processes. *)
Definition p1_proc (p : p1_par) : bool := 3 <? p1_ncores p.
Definition p1_chains (p : p1_par) : nat := if p1_proc p then p1_ncores p / 3 else 1.

(** pesa.py 133-137: an argument mu of None or 0 is falsy. *)
Definition p1_mu (p : p1_par) : nat :=
  match p1_muarg p with Some (S k) => S k | _ => p1_npop p / 2 end.

(** pesa.py 161-164: SMIN = 1/nx, SMAX = 0.5. *)
Definition p1_smin (p : p1_par) : Q := (1 / inject_Z (Z.of_nat (length (p1_dims p))))%Q.
Definition p1_smax : Q := 1 # 2.

(** Draws of one generation: ES offspring; for chain [j] and step [k] of SA the draw that decides
    on greedy replay and those of the step; PSO particles; replay indices; the strategies
    of replayed ES members (uniform draws in [0,1]). *)
Record p1_draw : Type := P1Draw {
  e_es : nat -> odraw; e_sa : nat -> nat -> Q * sdraw; e_pso : nat -> pdraw;
  e_res : nat -> nat; e_rpso : nat -> nat; e_rsa : nat -> nat; e_str : nat -> nat -> Q }.

(** A particle: position, speed, fitness (entries 0-2) and local best (entries 3-4). *)
Record par1 : Type := Par1 { q_pos : list Q; q_vel : list Q; q_fit : Q; q_lpos : list Q; q_lfit : Q }.

Definition p1_mem : Type := memory (list Q) p1_label.

Section P1.
Context (expf : Q -> Q) (tau tau' : nat -> Q) (pwf : Q -> Q -> Q) (m : mode) (fit : list Q -> Q) (p : p1_par) (fuel : nat).

(** pesa.py 94-100 and 183-195: the function every method maximises. *)
Definition p1_score (x : list Q) : Q := as_max m (fit x).

(* ---------- ES ---------- *)
(** es.py 276-317, one coordinate of mutES: that of evolu/es.py (ES_Model.v), except that with
    SMIN = SMAX line 286 divides by zero: NumPy gives inf or nan, the strategy of the coordinate
    becomes nan, [random.random() < nan] is false, and the coordinate keeps its (integer) value.
    A nan strategy is represented by an unspecified number, here the old one: the strategy of an
    integer coordinate is read by this very branch only. *)
Definition e_coord (n : nat) (dr : mdraw) (i : nat) (d : dimn) (x s : Q) : option (Q * Q) :=
  if d_int d && Qeq_bool (p1_smax - p1_smin p) 0 then Some (inject_Z (trunc x), s)
  else mut_coord expf tau tau' (p1_smin p) p1_smax n dr i d x s.

Fixpoint e_coords (n : nat) (dr : mdraw) (i : nat) (ds : list dimn) (v st : list Q) : option (list Q * list Q) :=
  match ds, v, st with
  | [], _, _ => Some ([], [])
  | d :: ds', x :: v', s :: st' =>
      let* '(y, t) := e_coord n dr i d x s in
      let* '(ys, ts) := e_coords n dr (S i) ds' v' st' in
      Some (y :: ys, t :: ts)
  | _, _, _ => None
  end.

(** es.py 250-327 mutES. *)
Definition e_mut (dr : mdraw) (ind st : list Q) : option (list Q * list Q) :=
  let* '(v, s) := e_coords (length ind) dr 0 (p1_dims p) (clip_vec (dims_bounds (p1_dims p)) ind) st in
  Some (clip_vec (dims_bounds (p1_dims p)) v, map (np_clip (p1_smin p) p1_smax) s).

(** es.py 345-380, body of the loop of GenOffspring: two-point crossover (es.py 222-247, as
    evolu/crossover.py), mutation, or reproduction (which repairs the member in place). *)
Definition e_one (dr : odraw) (pop : list member) : option (list member * (list Q * list Q)) :=
  let n := length pop in
  if Qltb (od_rn dr) (p1_cxpb p) then
    if n <? 2 then None else
    let a := od_i dr mod n in
    let b0 := od_j dr mod (n - 1) in
    let b := if b0 <? a then b0 else b0 + 1 in
    let* m1 := nth_error pop a in
    let* m2 := nth_error pop b in
    let* '(x, y, s, t) := cxES2point (od_r1 dr) (od_r2 dr) (m_ind m1) (m_ind m2) (m_strat m1) (m_strat m2) in
    Some (pop, (es_ensure_discrete (p1_dims p) (clip_vec (dims_bounds (p1_dims p)) x), s))
  else if Qltb (od_rn dr) (p1_cxpb p + p1_mutpb p) then
    let* a := choice pop (od_i dr) in
    let* xs := e_mut (od_mut dr) (m_ind a) (m_strat a) in
    Some (pop, xs)
  else
    let* a := choice pop (od_i dr) in
    let x := es_ensure_discrete (p1_dims p) (m_ind a) in
    Some (set_nth pop (od_i dr mod n) (Mem x (m_strat a) (m_fit a)), (x, m_strat a)).

Fixpoint e_loop (drs : nat -> odraw) (k todo : nat) (pop : list member) : option (list (list Q * list Q)) :=
  match todo with
  | O => Some []
  | S t => let* '(pop', o) := e_one (drs k) pop in
           let* os := e_loop drs (S k) t pop' in Some (o :: os)
  end.

(** es.py 387-455 evolute with ngen = 1 (offspring with clipped strategies, es.py 382-383; fitness;
    select, es.py 196-220): the surviving members, and (ghost) the evaluated points. *)
Definition e_evaluate (o : list Q * list Q) : member :=
  Mem (fst o) (map (np_clip (p1_smin p) p1_smax) (snd o)) (p1_score (fst o)).
Definition es_mod (drs : nat -> odraw) (pop : list member) : option (list member * list (list Q)) :=
  let* os := e_loop drs 0 (p1_npop p) pop in
  Some (select (map e_evaluate os) (p1_mu p), map fst os).

(* ---------- SA ---------- *)
(** sa.py 172-206, one pass of the loop of chain_object, step with temperature [sd_T]: replay of the best
    sample of the memory (which sorts the memory) or a random move (sa.py 110-127, as in
    evolu/sa.py); chain [j] counts from 0. *)
Definition s_step (j : nat) (dr : Q * sdraw) (mc : p1_mem * chain) : option (p1_mem * chain) :=
  let '(mem, c) := mc in
  let* '(mem', x) :=
    if Qltb (fst dr) (p1_backdoor p)
    then let '(mem', top) := sample_greedy mem 1 in let* b := nth_error top 0 in Some (mem', sx b)
    else let* y := def_move fuel (p1_chi p j) (snd dr) 0 (p1_dims p) (ch_x c) in Some (mem, y) in
  let E := p1_score x in
  let dE := (E - ch_E c)%Q in
  let log := ch_log c ++ [x] in
  Some (mem',
    if Qltb 0 dE then
      if Qltb (ch_bE c) E
      then Chain x E (S (ch_acc c)) (ch_rej c) (S (ch_imp c)) x E log
      else Chain x E (S (ch_acc c)) (ch_rej c) (S (ch_imp c)) (ch_bx c) (ch_bE c) log
    else if Qle_bool (sd_acc (snd dr)) (expf (dE / sd_T (snd dr))) then
      Chain x E (S (ch_acc c)) (ch_rej c) (ch_imp c) (ch_bx c) (ch_bE c) log
    else Chain (ch_x c) (ch_E c) (ch_acc c) (S (ch_rej c)) (ch_imp c) (ch_bx c) (ch_bE c) log).

(** sa.py 144-212 chain_object over [n] steps from [k]. *)
Definition s_chain (drs : nat -> nat -> Q * sdraw) (mem : p1_mem) (j k n : nat) (x : list Q) (E : Q) : option (p1_mem * chain) :=
  gens (fun k mc => s_step j (drs j k) mc) k n (mem, Chain x E 0 0 0 x E []).

(** sa.py 229-246: the chains take consecutive blocks of [n] steps.  In a pool each chain works on
    a copy of the memory. *)
Fixpoint s_chains (drs : nat -> nat -> Q * sdraw) (mem : p1_mem) (j k n : nat) (xs : list (list Q)) (es : list Q)
  : option (p1_mem * list chain) :=
  match xs, es with
  | [], [] => Some (mem, [])
  | x :: xs', e :: es' =>
      let* '(mem1, c) := s_chain drs mem j k n x e in
      let* '(mem2, cs) := s_chains drs (if p1_proc p then mem else mem1) (S j) (k + n) n xs' es' in
      Some (mem2, c :: cs)
  | _, _ => None
  end.

(** sa.py 214-301 chain and anneal with ngen = 1. *)
Definition sa_mod (drs : nat -> nat -> Q * sdraw) (mem : p1_mem) (step : nat) (xs : list (list Q)) (es : list Q)
  : option (p1_mem * list chain) :=
  let c := p1_chains p in
  if negb ((length xs =? c) && (length es =? c) && (p1_npop p mod c =? 0)) then None else
  s_chains drs mem 0 step (p1_npop p / c) xs es.

(* ---------- PSO ---------- *)
(** pso.py 139-188, one coordinate of UpdateParticle.  With 'globw' a swarm best of value zero is a
    ZeroDivisionError (line 154; NumPy numbers would give inf instead). *)
Definition q_coord (w sf lf : Q) (dr : pdraw) (i : nat) (d : dimn) (x v lp sp : Q) : option (Q * Q) :=
  let cog := (p1_c1 p * pd_r1 dr i * (lp - x))%Q in
  let soc := (p1_c2 p * pd_r2 dr i * (sp - x))%Q in
  let* v' :=
    match p1_mech p with
    | Constric => Some (p1_wc p * (v + cog + soc))%Q
    | Timew => Some (w * v + cog + soc)%Q
    | Globw => if Qeq_bool sf 0 then None else Some (((111 # 100) - lf / sf) * v + cog + soc)%Q
    end in
  if d_int d then
    if Qltb (pd_move dr i) (1 / (1 + expf (- v'))) then
      if (trunc (d_lo d) =? trunc (d_hi d))%Z then Some (inject_Z (trunc (d_lo d)), v')
      else
        let* l := zremove_num x (zrange (trunc (d_lo d)) (trunc (d_hi d) + 1)) in
        let* z := choice l (pd_pick dr i) in Some (inject_Z z, v')
    else Some (x, v')
  else
    let x' := (x + v')%Q in
    let x' := if Qltb (d_hi d) x' then d_hi d else x' in
    let x' := if Qltb x' (d_lo d) then d_lo d else x' in
    Some (x', v').

Fixpoint q_coords (w sf lf : Q) (dr : pdraw) (i : nat) (ds : list dimn) (x v lp sp : list Q) : option (list Q * list Q) :=
  match ds, x, v, lp, sp with
  | [], _, _, _, _ => Some ([], [])
  | d :: ds', a :: x', b :: v', c :: lp', e :: sp' =>
      let* '(y, u) := q_coord w sf lf dr i d a b c e in
      let* '(ys, us) := q_coords w sf lf dr (S i) ds' x' v' lp' sp' in
      Some (y :: ys, u :: us)
  | _, _, _, _, _ => None
  end.

(** pso.py 233-248 GenSwarm, one particle: local best kept, fitness reset. *)
Definition q_move (w : Q) (pos : list Q) (best : Q) (drs : nat -> pdraw) (i : nat) (a : par1) : option par1 :=
  let* '(x, v) := q_coords w best (q_lfit a) (drs i) 0 (p1_dims p) (q_pos a) (q_vel a) (q_lpos a) pos in
  Some (Par1 x v 0 (q_lpos a) (q_lfit a)).

(** pso.py 345-374 (and 323-340 with a pool): fitness, local best, swarm best. *)
Fixpoint q_eval (pos : list Q) (best : Q) (swarm : list par1) : list par1 * (list Q * Q) :=
  match swarm with
  | [] => ([], (pos, best))
  | a :: r =>
      let f := p1_score (q_pos a) in
      let better := Qltb (q_lfit a) f in
      let a' := Par1 (q_pos a) (q_vel a) f (if better then q_pos a else q_lpos a) (if better then f else q_lfit a) in
      let '(pos', best') := if better && Qltb best f then (q_pos a, f) else (pos, best) in
      let '(r', pb) := q_eval pos' best' r in (a' :: r', pb)
  end.

(** pso.py 208-231 select: the [k] best by current fitness. *)
Definition q_select (swarm : list par1) (k : nat) : list par1 := firstn k (Opt_Model.sort_desc q_fit swarm).

(** pso.py 250-407 evolute with ngen = 1 at global step [step] of [steps]: survivors, swarm best, new inertia
    weight, and (ghost) the evaluated points.  The weight belongs to the PSO object: in a process of
    its own the change (lines 374-385) is lost. *)
Definition pso_mod (step steps : nat) (drs : nat -> pdraw) (w : Q) (pos : list Q) (best : Q) (swarm : list par1)
  : option (list par1 * (list Q * Q) * Q * list (list Q)) :=
  if negb (length swarm =? p1_npop p) then None else
  let* moved := traverse (q_move w pos best drs) 0 swarm in
  let '(sw, pb) := q_eval pos best moved in
  let w' := match p1_mech p with
            | Timew => if p1_proc p then w else ((9#10) - ((9#10) - (4#10)) * inject_Z (Z.of_nat step) / inject_Z (Z.of_nat steps))%Q
            | _ => w
            end in
  Some (q_select sw (if p1_mu p =? 0 then p1_npop p else p1_mu p), pb, w', map q_pos moved).

(* ---------- memory ---------- *)
(** [self.mymemory.add] of a batch with one label. *)
Definition p1_add (mem : p1_mem) (l : p1_label) (pop : list (list Q * Q)) : option p1_mem :=
  add_batch vec_eqb p1_label_eqb mem (map fst pop) (map snd pop) (Some (repeat l (length pop))).

(** pesa.py 427-437 memory_update. *)
Definition p1_update (mem : p1_mem) (cs : list chain) (es : list member) (sw : list par1) : option p1_mem :=
  let* m1 := p1_add mem Wsanext (map (fun c => (ch_x c, ch_E c)) cs) in
  let* m2 := p1_add m1 Wsabest (map (fun c => (ch_bx c, ch_bE c)) cs) in
  let* m3 := p1_add m2 Wes (map (fun a => (m_ind a, m_fit a)) es) in
  p1_add m3 Wpso (map (fun a => (q_pos a, q_fit a)) sw).

(** [self.mymemory.sample(batch_size=k, mode='prior', alpha=...)]. *)
Definition p1_replay (alpha : Q) (mem : p1_mem) (k : nat) (draw : nat -> nat) : option (p1_mem * list (list Q * Q)) :=
  let* '(mem', l) := sample_prior (fun x => pwf x alpha) mem (map (fun i => draw i mod length (store mem)) (seq 0 k)) in
  Some (mem', map (fun a => (sx a, obj a)) l).

(** pesa.py 453-457 and 466-471: replayed samples as members (new strategies) and as particles. *)
Definition p1_member (str : nat -> nat -> Q) (i : nat) (a : list Q * Q) : member :=
  Mem (fst a) (map (fun k => p1_smin p + (p1_smax - p1_smin p) * str i k)%Q (seq 0 (length (p1_dims p)))) (snd a).
Fixpoint p1_members (str : nat -> nat -> Q) (i : nat) (l : list (list Q * Q)) : list member :=
  match l with [] => [] | a :: r => p1_member str i a :: p1_members str (S i) r end.
Definition p1_particle (a : list Q * Q) : par1 :=
  Par1 (fst a) (map (fun q => (1 # 10) * q)%Q (fst a)) (snd a) (fst a) (snd a).

(** pesa.py 439-474 resample. *)
Definition p1_resample (alpha : Q) (dr : p1_draw) (mem : p1_mem) (es : list member) (sw : list par1)
  : option (p1_mem * list member * list par1 * list (list Q * Q)) :=
  let* '(m1, re) := p1_replay alpha mem (p1_mu p) (e_res dr) in
  let* '(m2, rp) := p1_replay alpha m1 (p1_npop p - p1_mu p) (e_rpso dr) in
  let* '(m3, rs) := p1_replay alpha m2 (p1_chains p) (e_rsa dr) in
  Some (m3, es ++ p1_members (e_str dr) 0 re, sw ++ map p1_particle rp, rs).

(* ---------- the engine ---------- *)
(** What one generation reads and writes; ghosts: exponents and inertia weights used, evaluated
    points. *)
Record p1_state : Type := P1St {
  t_mem : p1_mem; t_pop : list member; t_sa : list (list Q * Q); t_swarm : list par1; t_pos : list Q; t_fit : Q;
  t_w : Q; t_step : nat; t_alpha : Q; t_best : option (list Q * Q); t_hist : list Q;
  t_alphas : list Q; t_ws : list Q; t_seen : list (list Q) }.

(** pesa.py 281-400, one generation. *)
Definition p1_gen (steps : nat) (drs : nat -> p1_draw) (g : nat) (st : p1_state) : option p1_state :=
  let dr := drs g in
  let* '(es, s1) := es_mod (e_es dr) (t_pop st) in
  let* '(mem1, cs) := sa_mod (e_sa dr) (t_mem st) (t_step st) (map fst (t_sa st)) (map snd (t_sa st)) in
  let* '(sw, pb, w, s3) := pso_mod (t_step st) steps (e_pso dr) (t_w st) (t_pos st) (t_fit st) (t_swarm st) in
  let step := t_step st + p1_npop p in
  let* mem2 := p1_update mem1 cs es sw in
  let* '(mem3, pop, swarm, sa) := p1_resample (t_alpha st) dr mem2 es sw in
  let '(mem4, top) := sample_greedy mem3 1 in
  let* b := nth_error top 0 in
  Some (P1St mem4 pop sa swarm (fst pb) (snd pb) w step (linear_anneal step steps (p1_alpha0 p) (p1_alpha1 p))
          (Some (sx b, obj b)) (t_hist st ++ [obj b]) (t_alphas st ++ [t_alpha st]) (t_ws st ++ [t_w st])
          (t_seen st ++ s1 ++ concat (map ch_log cs) ++ s3)).

(** pesa.py 213-216: the size of the memory; an attribute memory_size of None or 0 is falsy. *)
Definition p1_size (attr : option nat) (steps : nat) : nat :=
  match attr with Some (S k) => S k | _ => steps * 3 + 1 end.

(** pesa.py 197-279, up to the loop: warm-up points with their strategies ([init]: es.py 110-159,
    x0 after check_mixed_individual and encoding, or random individuals), memory, and init_guess
    (pesa.py 476-524). *)
Definition p1_start (attr : option nat) (ngen : nat) (init : list (list Q * list Q)) : option p1_state :=
  if (1 <=? ngen) && (p1_npop p <=? length init) && Qle_bool (p1_cxpb p + p1_mutpb p) 1
     && match p1_muarg p with Some (S k) => S k <? p1_npop p | _ => true end
  then
    let pop0 := map (fun o => Mem (fst o) (snd o) (p1_score (fst o))) init in
    let val (a : member) := (m_ind a, m_fit a) in
    let* mem := p1_add (new_memory (p1_size attr (ngen * p1_npop p))) Wna (map val pop0) in
    let sorted := Opt_Model.sort_desc m_fit pop0 in
    let* top := nth_error sorted 0 in
    Some (P1St mem (firstn (p1_npop p) sorted) (map val (firstn (p1_chains p) sorted))
            (map (fun a => p1_particle (val a)) (firstn (p1_npop p) sorted)) (m_ind top) (m_fit top)
            (9#10)%Q 1 (p1_alpha0 p) None [] [] [] (map fst init))
  else None.

(** Returned individual, value and history; the memory_size attribute left behind; ghosts. *)
Record p1_result : Type := P1Res {
  o_x : list Q; o_y : Q; o_hist : list Q; o_size : option nat;
  o_alphas : list Q; o_ws : list Q; o_seen : list (list Q) }.

(** pesa.py 197-412 evolute; [attr] is the attribute self.memory_size (constructor argument, or
    what line 385 left there). *)
Definition p1_evolute (attr : option nat) (ngen : nat) (drs : nat -> p1_draw) (init : list (list Q * list Q)) : option p1_result :=
  let* st0 := p1_start attr ngen init in
  let* st := gens (p1_gen (ngen * p1_npop p) drs) 0 ngen st0 in
  let* '(x, y) := t_best st in
  Some (P1Res x (as_max m y) (map (as_max m) (t_hist st)) (Some (length (store (t_mem st))))
          (t_alphas st) (t_ws st) (t_seen st)).

(** A second evolute call on the same object (pesa.py 213-214 reads what 385 wrote). *)
Definition p1_twice (attr : option nat) (n1 : nat) (d1 : nat -> p1_draw) (i1 : list (list Q * list Q))
    (n2 : nat) (d2 : nat -> p1_draw) (i2 : list (list Q * list Q)) : option (p1_result * p1_result) :=
  let* a := p1_evolute attr n1 d1 i1 in
  let* b := p1_evolute (o_size a) n2 d2 i2 in
  Some (a, b).
End P1.
