(** C24 (HCLPSO) and C50. *)
From Coq Require Import List Arith ZArith QArith.
From Verif Require Import Base Space_Model Space_Spec Opt_Model Opt_Spec Pop_Model Pop_Spec Swarm_Model Swarm_Demo BAT_Demo
  HCLPSO_Model HCLPSO_Spec HCLPSO_Proofs HCLPSO_Demo.
Import ListNotations.
Open Scope nat_scope.

(** C24: HCLPSO.evolute returns the best of the n*ngen evaluations it makes after the initial swarm,
    every point it evaluates is feasible, the histories are exact, and the returned population is the
    last one evaluated, with its values. *)
Theorem C24_hclpso expf m fit ds mt : wf_dims ds -> discrete_ok mt ds -> forall g1 g2 ngen di drs x0 r, 1 <= g1 + g2 ->
  hc_evolute expf m fit ds mt g1 g2 ngen di drs x0 = Some r ->
  best_of m fit (hcr_log r) (hcr_x r) (hcr_y r) /\ Forall (feasible ds) (hcr_first r ++ hcr_log r) /\
  length (hcr_first r) = g1 + g2 /\ length (hcr_log r) = (g1 + g2) * ngen /\
  length (hcr_hg r) = ngen /\ global_exact m fit (g1 + g2) 1 (hcr_log r) (hcr_hg r) /\ never_worse m (hcr_hg r) /\
  nth_error (hcr_hg r) (ngen - 1) = Some (hcr_y r) /\
  length (hcr_hl r) = ngen /\ local_exact m fit (g1 + g2) 1 (hcr_log r) (hcr_hl r) /\
  length (hcr_pop r) = g1 + g2 /\ (exists early, hcr_log r = early ++ hcr_pop r) /\ Forall2 (fun z v => (v == fit z)%Q) (hcr_pop r) (hcr_pf r).
Proof. exact (hc_best_ok expf m fit ds mt). Qed.
Print Assumptions C24_hclpso.

(** C24: with at least two particles it does not raise. *)
Theorem C24_hclpso_total expf m fit ds mt : wf_dims ds -> discrete_ok mt ds -> forall g1 g2 ngen di drs x0,
  2 <= g1 + g2 -> ngen <> 0 -> (forall l, x0 = Some l -> length l = g1 + g2) ->
  (forall i, unit_f (ci_f (di i))) -> (forall k i, unit_f (cd_f (drs k i))) ->
  exists r, hc_evolute expf m fit ds mt g1 g2 ngen di drs x0 = Some r.
Proof. exact (hc_total expf m fit ds mt). Qed.
Print Assumptions C24_hclpso_total.

(** C24 fails for the initial swarm: it is evaluated, holds the optimum (value 0), and the run returns 1.98. *)
Theorem C24_hclpso_initial_refuted : wf_dims bt_ds /\
  exists r, hc_evolute line Mmin bt_fit bt_ds NearestInt 1 1 1 hi_ci hi_cd None = Some r /\
  In [0 # 2]%Q (hcr_first r) /\ (bt_fit [0 # 2]%Q == 0)%Q /\ (hcr_y r == 198#100)%Q.
Proof. exact (conj (proj1 bt_ok) hi_lost). Qed.
Print Assumptions C24_hclpso_initial_refuted.

(** C24 fails for the user's start: any x0 of the right length gives the run without x0. *)
Theorem C24_hclpso_x0_refuted expf m fit ds mt g1 g2 ngen di drs l : length l = g1 + g2 ->
  hc_evolute expf m fit ds mt g1 g2 ngen di drs (Some l) = hc_evolute expf m fit ds mt g1 g2 ngen di drs None.
Proof. exact (x0_ignored expf m fit ds mt g1 g2 ngen di drs l). Qed.
Print Assumptions C24_hclpso_x0_refuted.

(** C50: after any number of generations, each particle's memory is the best point that particle has
    visited (initial swarm included), the attractor of the second group is the best point any
    particle has visited, velocities stay within a fifth of the ranges and positions in the space. *)
Theorem C50_memories expf m fit ds mt : wf_dims ds -> discrete_ok mt ds -> forall g1 g2 ngen di drs s0 k st, 1 <= g1 + g2 ->
  (forall i j, (0 <= ci_vel (di i) j)%Q /\ (ci_vel (di i) j <= 1)%Q) ->
  hc_start expf m fit ds mt g1 g2 di = Some s0 -> gens (hc_gen expf m fit ds mt g1 g2 ngen drs) 0 k s0 = Some st ->
  let log := hc_first st ++ hc_log st in
  length log = (g1 + g2) * (k + 1) /\ length (hc_sw st) = g1 + g2 /\
  (forall i p, nth_error (hc_sw st) i = Some p -> personal_best m fit (g1 + g2) i log (q_px p) (q_pv p) /\ slow ds (q_v p) /\ feasible ds (q_x p)) /\
  best_of m fit log (fst (hc_g st)) (as_min m (snd (hc_g st))).
Proof. exact (hc_memory expf m fit ds mt). Qed.
Print Assumptions C50_memories.

(** C50: the learning probabilities rise from 0 (first particle) to 1/4 (last). *)
Theorem C50_probabilities expf g1 g2 : 2 <= g1 + g2 -> (forall a b, (a < b)%Q -> (expf a < expf b)%Q) -> (forall a b, (a == b)%Q -> (expf a == expf b)%Q) ->
  (hc_pc expf g1 g2 0 == 0)%Q /\ (hc_pc expf g1 g2 (g1 + g2 - 1) == 1#4)%Q /\
  forall i j, i <= j -> (hc_pc expf g1 g2 i <= hc_pc expf g1 g2 j)%Q.
Proof. exact (pc_spec expf g1 g2). Qed.
Print Assumptions C50_probabilities.

(** The hypotheses are met by the mixed problem of Swarm_Demo.v. *)
Example C24_demo_hclpso : exists r, hc_evolute line Mmin dm_fit dm_ds NearestInt 2 2 3 dm_ci dm_cd None = Some r /\ length (hcr_log r) = 12 /\ length (hcr_first r) = 4.
Proof. exact dm_hclpso. Qed.
Example C50_demo : (forall i, unit_f (ci_f (dm_ci i))) /\ (forall k i, unit_f (cd_f (dm_cd k i))) /\
  (forall i j, (0 <= ci_vel (dm_ci i) j)%Q /\ (ci_vel (dm_ci i) j <= 1)%Q).
Proof. exact dm_hc_draws. Qed.
