(** C20: Particle Swarm Optimization. *)
From Coq Require Import List Arith ZArith QArith.
From Verif Require Import Base Space_Model Space_Spec Opt_Model Opt_Spec PSO_Model PSO_Proofs.
Import ListNotations.
Open Scope nat_scope.

(** C20: for every space, fitness, speed mechanism, initial swarm in the space and draws: the
    returned pair is the best of all evaluations, initial ones included; each particle's
    personal best is the best of its own evaluations; every evaluated point is in the space;
    each particle is evaluated at its initial position and once per generation; the returned
    value is at least as good as every entry of the history, which never gets worse. *)
Theorem C20_best expf m fit p : wf_dims (pp_dims p) ->
  forall ngen ws drs init r, Forall (feasible (pp_dims p)) init ->
  pso_evolute expf m fit p ngen ws drs init = Some r ->
  best_of m fit (concat (map pa_log (pr_swarm r))) (pr_x r) (pr_y r) /\
  Forall (fun a => best_of m fit (pa_log a) (pa_lpos a) (as_max m (pa_lfit a))) (pr_swarm r) /\
  length (pr_swarm r) = pp_npar p /\ Forall (fun a => length (pa_log a) = S ngen) (pr_swarm r) /\
  Forall (feasible (pp_dims p)) (concat (map pa_log (pr_swarm r))) /\
  length (pr_local r) = ngen /\ (forall v, In v (pr_local r) -> as_good m (pr_y r) v) /\ never_worse m (pr_global r).
Proof. exact (pso_best expf m fit p). Qed.
Print Assumptions C20_best.

(** C20: the first logged evaluation of particle k is the k-th initial position. *)
Theorem C20_initial expf m fit p : wf_dims (pp_dims p) ->
  forall ngen ws drs init r, Forall (feasible (pp_dims p)) init ->
  pso_evolute expf m fit p ngen ws drs init = Some r ->
  Forall2 (fun x a => hd_error (pa_log a) = Some x) init (pr_swarm r).
Proof. exact (pso_first expf m fit p). Qed.
Print Assumptions C20_initial.

(** C20: with integer bounds (or no integer variable) a run never raises. *)
Theorem C20_total expf m fit p : wf_dims (pp_dims p) ->
  forall ngen ws drs init, 1 <= ngen -> 1 <= pp_npar p -> length init = pp_npar p ->
  Forall (feasible (pp_dims p)) init ->
  Forall (fun d => d_int d = true -> pp_farr p = false) (pp_dims p) ->
  (pp_mech p = Timew -> forall l, ws = Some l -> length l = ngen) ->
  exists r, pso_evolute expf m fit p ngen ws drs init = Some r.
Proof. exact (pso_total expf m fit p). Qed.
Print Assumptions C20_total.

(** C20: the history leaves out the initial swarm: its last entry can be worse than the
    returned value. *)
Theorem C20_history_refuted expf : exists p fit init drs r v, wf_dims (pp_dims p) /\ Forall (feasible (pp_dims p)) init /\
  pso_evolute expf Mmin fit p 1 None drs init = Some r /\ pr_global r = [v] /\ (pr_y r < v)%Q.
Proof. exact (pso_history_short expf). Qed.
Print Assumptions C20_history_refuted.

(** C20: in a mixed space with a float bound, a run raises as soon as an integer coordinate is
    to be moved. *)
Theorem C20_mixed_refuted expf : exists p, wf_dims (pp_dims p) /\ pp_farr p = true /\ exists init,
  length init = pp_npar p /\ Forall (feasible (pp_dims p)) init /\
  forall m fit ngen ws drs, (0 < 1 / (1 + expf (- (pp_w p * ((1#10) + pp_c1 p * (1#2) * (1 - 1) + pp_c2 p * (1#2) * (1 - 1)))))) %Q ->
  (forall a b, drs a b = pso_draw0) -> pso_evolute expf m fit p ngen ws drs init = None.
Proof. exact (pso_mixed_fails expf). Qed.
Print Assumptions C20_mixed_refuted.

(** A mixed space, a swarm and a fitness meeting the hypotheses. *)
Example C20_demo expf drs :
  exists r, pso_evolute expf Mmax pso_demo_fit pso_demo_par 5 None drs pso_demo_init = Some r /\ (5#2 <= pr_y r)%Q.
Proof. exact (pso_demo_runs expf drs). Qed.
Example C20_demo_hyps : wf_dims pso_demo_dims /\ Forall (feasible pso_demo_dims) pso_demo_init /\
  length pso_demo_init = pp_npar pso_demo_par.
Proof. exact pso_demo_ok. Qed.
