(** C24 (Harris hawks). *)
From Coq Require Import List Arith ZArith QArith.
From Verif Require Import Base Space_Model Space_Spec Opt_Model Opt_Spec Pop_Model Pop_Spec Swarm_Model Swarm_Demo BAT_Demo HHO_Model HHO_Proofs HHO_Demo.
Import ListNotations.
Open Scope nat_scope.

(** C24: HHO.evolute returns the best of the n*ngen evaluations made at the start of the
    generations (the initial hawks are the first n of them); all evaluated points, those of the dives
    included, are feasible; the histories of these evaluations are exact and the returned
    population is the last one evaluated, with its values. *)
Theorem C24_hho expf m fit ds mt : wf_dims ds -> discrete_ok mt ds -> forall n ngen ke drs init r, 1 <= n -> good_init ds n init ->
  hho_evolute expf m fit ds mt n ngen ke drs init = Some r ->
  best_of m fit (hr_log r) (hr_x r) (hr_y r) /\ Forall (feasible ds) (hr_log r ++ hr_dives r ++ hr_last_dives r) /\
  length (hr_log r) = n * ngen /\ (exists rest, hr_log r = init ++ rest) /\ (exists early, hr_log r = early ++ hr_pop r) /\
  length (hr_hg r) = ngen /\ global_exact m fit n 1 (hr_log r) (hr_hg r) /\ never_worse m (hr_hg r) /\
  (exists v, nth_error (hr_hg r) (ngen - 1) = Some v /\ (v == hr_y r)%Q) /\
  length (hr_hl r) = ngen /\ local_exact m fit n 1 (hr_log r) (hr_hl r) /\
  length (hr_pop r) = n /\ Forall2 (fun z v => (v == fit z)%Q) (hr_pop r) (hr_pf r).
Proof. exact (hho_best_ok expf m fit ds mt). Qed.
Print Assumptions C24_hho.

(** C24: with the nearest-integer transformation the returned value is also at least as good as
    every evaluation made by the dives of all generations but the last. *)
Theorem C24_hho_dives expf m fit ds mt : wf_dims ds -> discrete_ok mt ds -> forall n ngen ke drs init r,
  mt = NearestInt -> respects fit -> good_init ds n init ->
  hho_evolute expf m fit ds mt n ngen ke drs init = Some r ->
  best_of m fit (hr_log r ++ hr_dives r) (hr_x r) (hr_y r).
Proof. exact (hho_dives_ok expf m fit ds mt). Qed.
Print Assumptions C24_hho_dives.

Theorem C24_hho_total expf m fit ds mt : wf_dims ds -> discrete_ok mt ds -> forall n ngen ke drs init,
  1 <= n -> good_init ds n init -> ngen <> 0 -> (forall l, ke = Some l -> length l = ngen) ->
  exists r, hho_evolute expf m fit ds mt n ngen ke drs init = Some r.
Proof. exact (hho_total expf m fit ds mt). Qed.
Print Assumptions C24_hho_total.

(** C24 fails for the dives of the last generation: a point better than 5 is evaluated, 5 is
    returned. *)
Theorem C24_hho_last_dives_refuted : wf_dims bt_ds /\ good_init bt_ds 2 hd_init /\
  exists r z, hho_evolute one Mmin bt_fit bt_ds NearestInt 2 1 None hd_draw hd_init = Some r /\
  In z (hr_last_dives r) /\ (bt_fit z < 5)%Q /\ (hr_y r == 5)%Q.
Proof. exact (conj (proj1 hd_ok) (conj (proj2 hd_ok) hd_lost)). Qed.
Print Assumptions C24_hho_last_dives_refuted.

(** C24 fails for the dives of every generation under a randomised integer transformation: the
    optimum 0 is found by a dive of the first generation, 5 is returned. *)
Theorem C24_hho_sigmoid_dives_refuted : wf_dims hi_ds /\ good_init hi_ds 2 hi_init /\ discrete_ok Sigmoid hi_ds /\
  exists r z, hho_evolute one Mmin bt_fit hi_ds Sigmoid 2 2 None hi_draw hi_init = Some r /\
  In z (hr_dives r) /\ (bt_fit z == 0)%Q /\ (hr_y r == 5)%Q.
Proof. exact (conj (proj1 hi_ok) (conj (proj1 (proj2 hi_ok)) (conj (proj2 (proj2 hi_ok)) hi_lost))). Qed.
Print Assumptions C24_hho_sigmoid_dives_refuted.

Example C24_demo_hho : exists r, hho_evolute one Mmin dm_fit dm_ds NearestInt 4 3 None dm_h dm_init = Some r /\
  (hr_y r < 125#4)%Q /\ length (hr_log r) = 12 /\ 1 <= length (hr_dives r).
Proof. exact dm_hho. Qed.
