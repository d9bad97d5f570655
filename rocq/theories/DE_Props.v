(** Property theorems C19 (Differential Evolution). *)
From Coq Require Import List Arith ZArith QArith Bool Lia.
From Verif Require Import Base BaseFacts Space_Model Space_Spec Space_Facts Opt_Model Opt_Spec Opt_Facts2 DE_Model DE_Proofs.
Import ListNotations.
Open Scope nat_scope.

(** C19: the three donors of a trial are distinct members of the population other than the
    target, and each coordinate of the vector that is then discretised into the trial is either
    the target's or x1 + F (x2 - x3) clipped to the bounds. *)
Theorem C19_donors expf p ngen pop j dr pop' v : wf_dims (de_dims p) ->
  length pop = de_npop p /\ Forall (feasible (de_dims p)) pop -> j < de_npop p ->
  de_one expf p ngen pop (j, dr) = Some (pop', v) ->
  exists i1 i2 i3 x1 x2 x3 xt trial,
    NoDup [j; i1; i2; i3] /\ i1 < de_npop p /\ i2 < de_npop p /\ i3 < de_npop p /\
    nth_error pop i1 = Some x1 /\ nth_error pop i2 = Some x2 /\ nth_error pop i3 = Some x3 /\ nth_error pop j = Some xt /\
    (forall i d a b c x, nth_error (de_dims p) i = Some d -> nth_error x1 i = Some a -> nth_error x2 i = Some b ->
       nth_error x3 i = Some c -> nth_error xt i = Some x ->
       nth_error trial i = Some (if Qle_bool (dd_cr dr i) (de_CR p)
                                 then clip1 (d_lo d) (d_hi d) (a + de_F p * (b - c)) else x)) /\
    inside (dim_bounds (de_dims p)) trial /\
    ensure_discrete expf (1 - inject_Z (Z.of_nat j) * (1 / inject_Z (Z.of_nat ngen))) (de_method p) (dd_vr dr) (dd_vp dr) (de_dims p) trial = Some v /\
    exists xt', ensure_discrete expf (1 - inject_Z (Z.of_nat j) * (1 / inject_Z (Z.of_nat ngen))) (de_method p) (dd_tr dr) (dd_tp dr) (de_dims p) xt = Some xt' /\ pop' = set_nth pop j xt'.
Proof. intros W. exact (de_one_spec expf Mmax (fun _ => 0%Q) p ngen W pop j dr pop' v). Qed.
Print Assumptions C19_donors.

(** C19: with the nearest-integer transformation (or without integer variables) no slot of the
    population gets worse from one generation to the next. *)
Theorem C19_slot_greedy expf m fit p ngen : wf_dims (de_dims p) -> keeps_ints (de_method p) (de_dims p) -> respects fit ->
  forall drs st st' i x x',
  length (ds_pop st) = de_npop p /\ Forall (feasible (de_dims p)) (ds_pop st) ->
  de_gen expf m fit p ngen drs st = Some st' ->
  nth_error (ds_pop st) i = Some x -> nth_error (ds_pop st') i = Some x' -> as_good m (fit x') (fit x).
Proof. exact (de_slot_greedy expf m fit p ngen). Qed.
Print Assumptions C19_slot_greedy.

(** C19: then the returned pair is the best of all evaluated points, at least as good as every
    initial individual; the fitness is only evaluated on points of the space; the history has
    one entry per generation, never gets worse and ends with the returned value. *)
Theorem C19_best expf m fit p ngen : wf_dims (de_dims p) -> keeps_ints (de_method p) (de_dims p) -> respects fit ->
  forall drs init r, length init = de_npop p /\ Forall (feasible (de_dims p)) init ->
  de_evolute expf m fit p ngen drs init = Some r ->
  best_of m fit (dr_seen r) (dr_x r) (dr_y r) /\
  (forall z, In z init -> as_good m (dr_y r) (fit z)) /\
  Forall (feasible (de_dims p)) (dr_seen r) /\
  length (dr_local r) = ngen /\ never_worse m (dr_local r) /\ last (dr_local r) 0%Q = dr_y r /\
  dr_fits r = map (fun x => as_max m (as_max m (fit x))) (dr_pop r).
Proof. exact (de_evolute_best expf m fit p ngen). Qed.
Print Assumptions C19_best.

(** C19: such a run never raises. *)
Theorem C19_total expf m fit p ngen : wf_dims (de_dims p) -> keeps_ints (de_method p) (de_dims p) -> respects fit ->
  forall drs init, 4 <= de_npop p -> 1 <= ngen -> length init = de_npop p /\ Forall (feasible (de_dims p)) init ->
  exists r, de_evolute expf m fit p ngen drs init = Some r.
Proof. exact (de_evolute_total expf m fit p ngen). Qed.
Print Assumptions C19_total.

(** C19: with the sigmoid transformation the targets themselves are perturbed and the returned
    value can be worse than an initial individual. *)
Theorem C19_sigmoid_refuted expf : exists p drs init ngen r z,
  wf_dims (de_dims p) /\ de_method p = Sigmoid /\ 4 < de_npop p /\ 1 <= ngen /\
  length init = de_npop p /\ Forall (feasible (de_dims p)) init /\ respects de_wit_fit /\
  de_evolute expf Mmax de_wit_fit p ngen drs init = Some r /\ In z init /\ (dr_y r < de_wit_fit z)%Q.
Proof. exact (de_sigmoid_loses expf). Qed.
Print Assumptions C19_sigmoid_refuted.

(** A mixed space, a population and a fitness meeting the hypotheses; whatever is drawn the
    run returns at least 4. *)
Example C19_demo expf drs :
  exists r, de_evolute expf Mmax de_demo_fit de_demo_par 7 drs de_demo_init = Some r /\ (4 <= dr_y r)%Q.
Proof. exact (de_demo_runs expf drs). Qed.
Example C19_demo_hyps : wf_dims (de_dims de_demo_par) /\ keeps_ints (de_method de_demo_par) (de_dims de_demo_par) /\
  respects de_demo_fit /\ length de_demo_init = de_npop de_demo_par /\ Forall (feasible (de_dims de_demo_par)) de_demo_init.
Proof. exact de_demo_ok. Qed.
