(** Model of PESA2: neorl/hybrid/pesa2.py with the modified optimizers of neorl/hybrid/pesacore
    (gwo.py, de.py, woa.py; es.py only creates the warm-up samples) and the replay memory
    (pesacore/er.py, modelled in ER_Model.v).

    Individuals are Python lists, which PESA2 shares between the replay memory and the population
    of DE; DE rounds them in place.  They are therefore modelled as positions (references) in a
    heap of vectors.  Vectors live in the encoded numeric space; decoding of grid variables is part
    of the arbitrary fitness function; joblib/multiprocess pools are order-preserving maps; numbers
    are exact; printing is left out.  With [ncores >= 4] each method runs in its own process: what
    it changes in place is not seen by the parent, and what it returns are fresh lists. *)
From Coq Require Import List Arith ZArith QArith Qround Bool.
From Verif Require Import Base Space_Model ER_Model Opt_Model Pop_Model Swarm_Model GWO_Model DE_Model.
Import ListNotations.
Open Scope nat_scope.

(** The labels 'na', 'gwo', 'de', 'woa' of memory samples (pesa2.py 273, 459-461). *)
Inductive p2_label : Type := Lna | Lgwo | Lde | Lwoa.
Definition label_eqb (a b : p2_label) : bool :=
  match a, b with Lna, Lna | Lgwo, Lgwo | Lde, Lde | Lwoa, Lwoa => true | _, _ => false end.

(** [==] of two lists of numbers. *)
Fixpoint vec_eqb (a b : list Q) : bool :=
  match a, b with
  | [], [] => true
  | x :: a', y :: b' => Qeq_bool x y && vec_eqb a' b'
  | _, _ => false
  end.

(** Constructor arguments, pesa2.py 81-188 (those that matter here; nwolves and nwhales after the
    adjustment of lines 104-113); [p2_proc] is [ncores > 3]. *)
Record p2_par : Type := P2Par {
  p2_dims : list dimn; p2_method : imethod; p2_npop : nat; p2_nwolves : nat; p2_nwhales : nat;
  p2_F : Q; p2_CR : Q; p2_R : Q; p2_alpha0 : Q; p2_alpha1 : Q; p2_proc : bool }.

(** pesa2.py 116-121 and 161-164: generations of GWO and WOA per replay, survivors of each method
    ([int(R_frac*n)], R_frac >= 0). *)
Definition p2_gens (npop n : nat) : nat := Nat.max 1 (npop / n).
Definition p2_mu (p : p2_par) (n : nat) : nat := Z.to_nat (Qfloor (p2_R p * inject_Z (Z.of_nat n))).

(** Random draws of one replay generation. *)
Record p2_draw : Type := P2Draw {
  pd_gwo : nat -> nat -> gdraw; pd_de : nat -> nat -> de_draw; pd_woa : nat -> nat -> wdraw;
  pd_rgwo : nat -> nat; pd_rde : nat -> nat; pd_rwoa : nat -> nat }.

(** The heap of vectors; [h_get] is reading the list behind a reference. *)
Definition heap : Type := list (list Q).
Definition ref : Type := nat.
Definition h_get (h : heap) (r : ref) : list Q := nth r h [].
(** New list objects for the given vectors, and their references. *)
Definition h_new (h : heap) (vs : list (list Q)) : heap * list ref :=
  (h ++ vs, seq (length h) (length vs)).

Definition par_de (p : p2_par) : de_par := DePar (p2_dims p) (p2_npop p) (p2_F p) (p2_CR p) (p2_method p).

Section P2.
Context (expf cosf : Q -> Q) (pwf : Q -> Q -> Q) (m : mode) (fit : list Q -> Q) (p : p2_par).

(** pesa2.py 92-98 and 210-223: the function every method maximises ([fit_worker] clips its
    argument first, see [p2_score]). *)
Definition p2_F1 (x : list Q) : Q := as_max m (fit x).
Definition p2_arg (x : list Q) : list Q := clip_vec (bnds (p2_dims p)) x.
Definition p2_score (x : list Q) : Q := p2_F1 (p2_arg x).

(** pesacore/de.py 183-222, individual [j]: the target is discretised in place, the trial vector
    is a new list. *)
Definition hde_one (ngen : nat) (pop : list ref) (h : heap) (jd : nat * de_draw) : option (heap * ref) :=
  let '(j, dr) := jd in
  let b := (1 - inject_Z (Z.of_nat j) * (1 / inject_Z (Z.of_nat ngen)))%Q in
  let candidates := filter (fun i => negb (i =? j)) (seq 0 (p2_npop p)) in
  let* idx := Opt_Model.sample candidates [dd_1 dr; dd_2 dr; dd_3 dr] in
  match idx with
  | [i1; i2; i3] =>
      let* r1 := nth_error pop i1 in
      let* r2 := nth_error pop i2 in
      let* r3 := nth_error pop i3 in
      let* rt := nth_error pop j in
      let diff := map2 (fun a c => a - c)%Q (h_get h r2) (h_get h r3) in
      let donor := clip_vec (bnds (p2_dims p)) (map2 (fun a c => a + p2_F p * c)%Q (h_get h r1) diff) in
      let* trial := recombine (p2_CR p) (dd_cr dr) 0 donor (h_get h rt) in
      let* xt := ensure_discrete expf b (p2_method p) (dd_tr dr) (dd_tp dr) (p2_dims p) (h_get h rt) in
      let* v := ensure_discrete expf b (p2_method p) (dd_vr dr) (dd_vp dr) (p2_dims p) trial in
      Some (set_nth h rt xt ++ [v], length h)
  | _ => None
  end.

(** Heap, population, scores, (ghost) evaluated points. *)
Record hde_state : Type := HdeSt { hd_heap : heap; hd_pop : list ref; hd_fits : list Q; hd_seen : list (list Q) }.

(** pesacore/de.py 174-266, one generation: all trials, then all evaluations, then the selection. *)
Definition hde_gen (ngen : nat) (drs : nat -> nat -> de_draw) (g : nat) (st : hde_state) : option hde_state :=
  let* '(h, trials) :=
    iter_steps (hde_one ngen (hd_pop st)) (hd_heap st) (map (fun j => (j, drs g j)) (seq 0 (p2_npop p))) in
  let sc r := p2_score (h_get h r) in
  Some (HdeSt h
    (map2 (fun t v => if Qltb (sc t) (sc v) then v else t) (hd_pop st) trials)
    (map2 (fun t v => if Qltb (sc t) (sc v) then sc v else sc t) (hd_pop st) trials)
    (hd_seen st ++ map (fun r => p2_arg (h_get h r)) (trials ++ hd_pop st))).

(** DEmod.evolute, pesacore/de.py 152-290: the population and its scores.  In a process of its own
    the parent's lists stay as they were and the results are new lists. *)
Definition de_mod (ngen : nat) (drs : nat -> nat -> de_draw) (h : heap) (x0 : list ref)
  : option (heap * list (ref * Q) * list (list Q)) :=
  if negb (length x0 =? p2_npop p) then None else
  let* st := gens (hde_gen ngen drs) 0 ngen (HdeSt h x0 [] []) in
  if p2_proc p
  then let '(h', rs) := h_new h (map (h_get (hd_heap st)) (hd_pop st)) in Some (h', combine rs (hd_fits st), hd_seen st)
  else Some (hd_heap st, combine (hd_pop st) (hd_fits st), hd_seen st).

(** GWOmod.evolute, pesacore/gwo.py 151-342, mode 'max': the arithmetic is that of evolu/gwo.py
    (GWO_Model.v); the wolves of the last evaluation are returned as new lists, with their
    fitness. *)
Definition gwo_mod (ngen : nat) (drs : nat -> nat -> gdraw) (h : heap) (x0 : list ref)
  : option (heap * list (ref * Q) * list (list Q)) :=
  if negb (length x0 =? p2_nwolves p) then None else
  let* r := gwo_evolute expf Mmax p2_F1 (p2_dims p) (p2_method p) ngen None drs (map (h_get h) x0) in
  let '(h', rs) := h_new h (gr_pop r) in
  Some (h', combine rs (gr_pf r), gr_log r).

(** WOAmod.evolute, pesacore/woa.py 214-308, mode 'max', a0 = 2, b = 1 (arithmetic of evolu/woa.py,
    Swarm_Model.v): the last whales as new lists, with their fitness. *)
Definition woa_mod (ngen : nat) (drs : nat -> nat -> wdraw) (h : heap) (x0 : list ref)
  : option (heap * list (ref * Q) * list (list Q)) :=
  if negb (length x0 =? p2_nwhales p) then None else
  let* r := woa_evolute expf cosf Mmax p2_F1 (p2_dims p) (p2_method p) (p2_nwhales p) 2 1 ngen None None drs (map (h_get h) x0) in
  let '(h', rs) := h_new h (pr_pop r) in
  Some (h', combine rs (pr_pf r), pr_log r).

(** pesa2.py 425-448 select: the [k] best, best first (stable). *)
Definition p2_select (pop : list (ref * Q)) (k : nat) : list (ref * Q) := firstn k (Opt_Model.sort_desc snd pop).

(** [self.mymemory.add] of a batch with one label. *)
Definition p2_mem : Type := memory ref p2_label.
Definition p2_add (h : heap) (mem : p2_mem) (l : p2_label) (pop : list (ref * Q)) : option p2_mem :=
  add_batch (fun a b => vec_eqb (h_get h a) (h_get h b)) label_eqb mem
    (map fst pop) (map snd pop) (Some (repeat l (length pop))).

(** pesa2.py 450-461 memory_update. *)
Definition p2_memory_update (h : heap) (mem : p2_mem) (g d w : list (ref * Q)) : option p2_mem :=
  let* m1 := p2_add h mem Lgwo g in
  let* m2 := p2_add h m1 Lde d in
  p2_add h m2 Lwoa w.

(** One call [self.mymemory.sample(batch_size=k, mode='prior', alpha=...)]: draw number [i] gives
    an index below the length of the storage. *)
Definition p2_replay (alpha : Q) (mem : p2_mem) (k : nat) (draw : nat -> nat) : option (p2_mem * list ref) :=
  let* '(mem', l) := sample_prior (fun x => pwf x alpha) mem (map (fun i => draw i mod length (store mem)) (seq 0 k)) in
  Some (mem', map sx l).

(** pesa2.py 463-501 resample: each method keeps its survivors and is filled up from the memory. *)
Definition p2_resample (alpha : Q) (mem : p2_mem) (dr : p2_draw) (g d w : list (ref * Q))
  : option (p2_mem * (list ref * list ref * list ref)) :=
  let* '(m1, rg) := p2_replay alpha mem (p2_nwolves p - p2_mu p (p2_nwolves p)) (pd_rgwo dr) in
  let* '(m2, rd) := p2_replay alpha m1 (p2_npop p - p2_mu p (p2_npop p)) (pd_rde dr) in
  let* '(m3, rw) := p2_replay alpha m2 (p2_nwhales p - p2_mu p (p2_nwhales p)) (pd_rwoa dr) in
  Some (m3, (map fst g ++ rg, map fst d ++ rd, map fst w ++ rw)).

(** pesa2.py 412-423. *)
Definition linear_anneal (step total : nat) (a0 a1 : Q) : Q :=
  let r := (inject_Z (Z.of_nat step) / inject_Z (Z.of_nat total))%Q in
  (a0 + (if Qle_bool 1 r then 1 else r) * (a1 - a0))%Q.

(** The attributes that one generation reads and writes, plus ghosts: the evaluated points and,
    per generation, the populations the methods reported. *)
Record p2_state : Type := P2St {
  ps_heap : heap; ps_mem : p2_mem; ps_gwo : list ref; ps_de : list ref; ps_woa : list ref;
  ps_step : nat; ps_alpha : Q; ps_best : option (ref * Q); ps_hist : list Q;
  ps_alphas : list Q; ps_seen : list (list Q); ps_pops : list (list (list Q * Q)) }.

(** pesa2.py 304-399, one replay generation. *)
Definition p2_gen (replay_every steps : nat) (drs : nat -> p2_draw) (g : nat) (st : p2_state) : option p2_state :=
  let dr := drs g in
  let* '(h1, gp, s1) := gwo_mod (p2_gens (p2_npop p) (p2_nwolves p) * replay_every) (pd_gwo dr) (ps_heap st) (ps_gwo st) in
  let* '(h2, dp, s2) := de_mod replay_every (pd_de dr) h1 (ps_de st) in
  let* '(h3, wp, s3) := woa_mod (p2_gens (p2_npop p) (p2_nwhales p) * replay_every) (pd_woa dr) h2 (ps_woa st) in
  let gs := p2_select gp (p2_mu p (p2_nwolves p)) in
  let dl := p2_select dp (p2_mu p (p2_npop p)) in
  let ws := p2_select wp (p2_mu p (p2_nwhales p)) in
  let step := ps_step st + p2_npop p in
  let* mem1 := p2_memory_update h3 (ps_mem st) gs dl ws in
  let* '(mem2, (ng, nd, nw)) := p2_resample (ps_alpha st) mem1 dr gs dl ws in
  let '(mem3, top) := sample_greedy mem2 1 in
  let* b := nth_error top 0 in
  let val (rq : ref * Q) := (h_get h3 (fst rq), snd rq) in
  Some (P2St h3 mem3 ng nd nw step (linear_anneal step steps (p2_alpha0 p) (p2_alpha1 p))
          (Some (sx b, obj b)) (ps_hist st ++ [obj b]) (ps_alphas st ++ [ps_alpha st])
          (ps_seen st ++ s1 ++ s2 ++ s3) (ps_pops st ++ [map val gp ++ map val dp ++ map val wp])).

(** Returned individual, value and history; the memory_size attribute left behind; ghosts. *)
Record p2_result : Type := P2Res {
  pq_x : list Q; pq_y : Q; pq_hist : list Q; pq_size : option nat;
  pq_alphas : list Q; pq_seen : list (list Q); pq_pops : list (list (list Q * Q)) }.

(** pesa2.py 241-245: the size of the replay memory; an attribute of 0 or None is falsy. *)
Definition p2_size (attr : option nat) (steps : nat) : nat :=
  match attr with Some (S k) => S k | _ => steps * 3 + 1 end.

(** pesa2.py 225-410 evolute, starting from the warm-up points [xs] (x0 after
    check_mixed_individual and encoding, or [warmup] random individuals); [attr] is the attribute
    self.memory_size.  None: an exception (failed assertion; with no replay generation the returned
    attributes are unset). *)
Definition p2_start (attr : option nat) (ngen replay_every : nat) (xs : list (list Q)) : option p2_state :=
  if (2 <=? ngen) && (1 <=? replay_every) && (p2_npop p <=? length xs) && Qle_bool 0 (p2_R p) && Qle_bool (p2_R p) 1
     && (1 <=? p2_nwolves p) && (1 <=? p2_nwhales p) && (4 <? p2_npop p)
  then
    let steps := ngen / replay_every * p2_npop p in
    let '(h, rs) := h_new [] xs in
    let pop0 := combine rs (map p2_score xs) in
    let* mem := p2_add h (new_memory (p2_size attr steps)) Lna pop0 in
    let best n := map (fun rq => h_get h (fst rq)) (p2_select pop0 n) in
    let '(h1, g) := h_new h (best (p2_nwolves p)) in
    let '(h2, d) := h_new h1 (best (p2_npop p)) in
    let '(h3, w) := h_new h2 (best (p2_nwhales p)) in
    Some (P2St h3 mem g d w 1 (p2_alpha0 p) None [] [] (map p2_arg xs) [])
  else None.

Definition p2_evolute (attr : option nat) (ngen replay_every : nat) (drs : nat -> p2_draw) (xs : list (list Q))
  : option p2_result :=
  let* st0 := p2_start attr ngen replay_every xs in
  let* st := gens (p2_gen replay_every (ngen / replay_every * p2_npop p) drs) 0 (ngen / replay_every) st0 in
  let* '(r, y) := ps_best st in
  Some (P2Res (h_get (ps_heap st) r) (as_max m y) (map (as_max m) (ps_hist st)) (Some (length (store (ps_mem st))))
          (ps_alphas st) (ps_seen st) (ps_pops st)).

(** A second evolute call on the same object reads the memory_size attribute the first one left
    (pesa2.py 242-243, 382). *)
Definition p2_twice (attr : option nat) (n1 r1 : nat) (d1 : nat -> p2_draw) (xs1 : list (list Q))
    (n2 r2 : nat) (d2 : nat -> p2_draw) (xs2 : list (list Q)) : option (p2_result * p2_result) :=
  let* a := p2_evolute attr n1 r1 d1 xs1 in
  let* b := p2_evolute (pq_size a) n2 r2 d2 xs2 in
  Some (a, b).
End P2.
