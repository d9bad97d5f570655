(** C22: Grey Wolf Optimizer.  [podium] is in GWO_Spec.v, [report] in Pop_Spec.v. *)
From Coq Require Import List Arith ZArith QArith.
From Verif Require Import Base Space_Model Space_Spec Opt_Model Opt_Spec Pop_Model Pop_Spec Swarm_Model GWO_Model GWO_Spec GWO_Proofs Swarm_Demo.
Import ListNotations.
Open Scope nat_scope.

(** C22: GWO.evolute returns the best of all evaluations, in the space, with an exact history;
    entry k of the alpha, beta and delta histories are the best, second best and third best
    distinct values evaluated in the first k+1 generations. *)
Theorem C22_gwo expf m fit ds mt : wf_dims ds -> discrete_ok mt ds -> forall n, 1 <= n ->
  forall ngen ka drs init r, good_init ds n init -> gwo_evolute expf m fit ds mt ngen ka drs init = Some r ->
  report m fit ds n 1 ngen init (gr_log r) (gr_x r) (gr_y r) (gr_hist r) (gr_pop r) (gr_pf r) /\
  length (gr_alpha r) = ngen /\ length (gr_beta r) = ngen /\ length (gr_delta r) = ngen /\
  (forall k a b d, nth_error (gr_alpha r) k = Some a -> nth_error (gr_beta r) k = Some b -> nth_error (gr_delta r) k = Some d ->
     podium m (map fit (firstn (n * S k) (gr_log r))) a b d).
Proof. exact (gwo_best_ok expf m fit ds mt). Qed.
Print Assumptions C22_gwo.

(** C22: at every generation the position remembered for a leader was evaluated, has the leader's
    score and is in the space. *)
Theorem C22_leaders expf m fit ds mt : wf_dims ds -> discrete_ok mt ds -> forall n, 1 <= n ->
  forall ngen ka drs init k st, good_init ds n init -> gens (gwo_gen expf m fit ds mt ngen ka drs) 0 k (gwo_start ds init) = Some st ->
  forall w, w = l_alpha (gw_lead st) \/ w = l_beta (gw_lead st) \/ w = l_delta (gw_lead st) ->
  forall q, snd w = Fin q -> In (fst w) (gw_log st) /\ (q == as_min m (fit (fst w)))%Q /\ feasible ds (fst w).
Proof. exact (gwo_leaders expf m fit ds mt). Qed.
Print Assumptions C22_leaders.

(** C22: the run does not raise. *)
Theorem C22_total expf m fit ds mt : wf_dims ds -> discrete_ok mt ds -> forall n, 1 <= n ->
  forall ngen ka drs init, good_init ds n init -> ngen <> 0 -> (forall l, ka = Some l -> length l = ngen) ->
  exists r, gwo_evolute expf m fit ds mt ngen ka drs init = Some r.
Proof. exact (gwo_total expf m fit ds mt). Qed.
Print Assumptions C22_total.

Example C22_demo_hyps : wf_dims dm_ds /\ good_init dm_ds 4 dm_init /\ (forall mt, mt <> OtherMethod -> discrete_ok mt dm_ds).
Proof. exact dm_ok. Qed.
Example C22_demo : exists r, gwo_evolute one Mmin dm_fit dm_ds NearestInt 3 None dm_g dm_init = Some r /\ (gr_y r < 125#4)%Q /\ length (gr_log r) = 12.
Proof. exact (proj2 (proj2 (proj2 (proj2 dm_runs)))). Qed.
