(** C23 (cuckoo search) and C25.  [nearest_point] and [ints_ok] are in CS_Spec.v. *)
From Coq Require Import List Arith ZArith QArith.
From Verif Require Import Base Space_Model Space_Spec Opt_Model Opt_Spec Pop_Model Pop_Spec Swarm_Model Swarm_Demo CS_Model CS_Spec CS_Proofs CS_Demo.
Import ListNotations.
Open Scope nat_scope.

(** C23, C25: CS.evolute returns a value that is the best of all n*(2*ngen+1) evaluations
    (initial nests included); it is the value of the point of the space nearest to the returned
    position, whose integer coordinates are integral and in range.  Every point given to the
    fitness function is feasible.  Entry k of the global history is the best of the first
    n*(2k+3) evaluations; the local history is the same; the returned population carries the
    values of the nearest points. *)
Theorem C23_cs expf m fit ds mt pa : wf_dims ds -> forall n, 1 <= n -> forall ngen fly drop init r, good_init ds n init ->
  cs_evolute expf m fit ds mt pa ngen fly drop init = Some r ->
  best_of m fit (pr_log r) (nearest_point ds (pr_bx r)) (pr_by r) /\ ints_ok ds (pr_bx r) /\
  Forall (feasible ds) (pr_log r) /\ length (pr_log r) = n * (2 * ngen + 1) /\ (exists rest, pr_log r = init ++ rest) /\
  length (pr_hg r) = ngen /\ Forall2 Qeq (pr_hl r) (pr_hg r) /\
  (forall k v, nth_error (pr_hg r) k = Some v -> exists z, best_of m fit (firstn (n * (2 * k + 3)) (pr_log r)) z v) /\
  never_worse m (pr_hg r) /\ nth_error (pr_hg r) (ngen - 1) = Some (pr_by r) /\
  length (pr_pop r) = n /\ Forall2 (fun z v => (v == fit (nearest_point ds z))%Q) (pr_pop r) (pr_pf r).
Proof. exact (cs_best_ok expf m fit ds mt pa). Qed.
Print Assumptions C23_cs.

(** C23: it does not raise with the nearest-integer transformation. *)
Theorem C23_cs_total expf m fit ds pa : wf_dims ds -> forall n ngen fly drop init, 1 <= n -> good_init ds n init -> ngen <> 0 ->
  exists r, cs_evolute expf m fit ds NearestInt pa ngen fly drop init = Some r.
Proof. exact (cs_total expf m fit ds pa). Qed.
Print Assumptions C23_cs_total.

(** C23: in every generation no nest gets worse. *)
Theorem C23_cs_rows expf m fit ds mt pa : wf_dims ds -> forall n, 1 <= n -> forall ngen fly drop init i f x k st st', good_init ds n init ->
  argmin (map (pt_score m fit ds) init) = Some (i, f) -> nth_error init i = Some x ->
  gens (cs_gen expf m fit ds mt pa ngen fly drop) 1 k (CsSt (scored m fit ds init) (x, f) [] [] (map (pt_arg ds) init)) = Some st ->
  cs_gen expf m fit ds mt pa ngen fly drop (S k) st = Some st' ->
  Forall2 (fun o w => (snd w <= snd o)%Q) (cs_pop st) (cs_pop st').
Proof. exact (cs_rows expf m fit ds mt pa). Qed.
Print Assumptions C23_cs_rows.

(** C25: the returned position itself can lie outside the bounds, and the returned value is then
    not its fitness. *)
Theorem C25_cs_feasible_refuted : wf_dims cu_ds /\ good_init cu_ds 2 cu_init /\
  exists r, cs_evolute one Mmin cu_fit cu_ds NearestInt (1#4) 1 cu_fly cu_drop cu_init = Some r /\
  exists a, pr_bx r = [a] /\ (a < 0)%Q /\ (pr_by r == 0)%Q /\ ~ (pr_by r == cu_fit (pr_bx r))%Q.
Proof. exact (conj (proj1 cu_ok) (conj (proj2 cu_ok) cu_out)). Qed.
Print Assumptions C25_cs_feasible_refuted.

(** C25: and with a randomised integer transformation a Levy step beyond the bounds raises
    (the other optimizers do not under the same settings, cf. C22_total, C23_woa_total). *)
Theorem C25_cs_sigmoid_refuted : wf_dims ci_ds /\ good_init ci_ds 2 ci_init /\ discrete_ok Sigmoid ci_ds /\
  cs_evolute one Mmin cu_fit ci_ds Sigmoid (1#4) 1 ci_fly cu_drop ci_init = None.
Proof. exact (conj (proj1 ci_ok) (conj (proj1 (proj2 ci_ok)) (conj (proj2 (proj2 ci_ok)) ci_raises))). Qed.
Print Assumptions C25_cs_sigmoid_refuted.

(** The hypotheses hold for the mixed problem of Swarm_Demo.v, and the run improves on the
    initial nests. *)
Example C23_demo_cs : exists r, cs_evolute one Mmin dm_fit dm_ds NearestInt (1#4) 3 dm_c dm_a dm_init = Some r /\ (pr_by r < 125#4)%Q /\ length (pr_log r) = 28.
Proof. exact dm_cs. Qed.
