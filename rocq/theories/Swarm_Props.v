(** C23: WOA, SSA, MFO and JAYA.  [report] and the other notions used are in Pop_Spec.v. *)
From Coq Require Import List Arith ZArith QArith.
From Verif Require Import Base Space_Model Space_Spec Opt_Model Opt_Spec Pop_Model Pop_Spec Swarm_Model Swarm_Proofs Swarm_Demo.
Import ListNotations.
Open Scope nat_scope.

(** C23: WOA.evolute returns the best of all evaluations (initial whales included); entry k of
    the global history is the best of the first k+2 populations, entry k of the local history the
    best of population k+1; the returned population is the last one with its fitness values. *)
Theorem C23_woa expf cosf m fit ds mt : wf_dims ds -> discrete_ok mt ds -> forall n, 1 <= n ->
  forall a0 b ngen ka kfac drs init r, good_init ds n init ->
  woa_evolute expf cosf m fit ds mt n a0 b ngen ka kfac drs init = Some r ->
  report m fit ds n 2 ngen init (pr_log r) (pr_bx r) (pr_by r) (pr_hg r) (pr_pop r) (pr_pf r) /\
  length (pr_hl r) = ngen /\ local_exact m fit n 2 (pr_log r) (pr_hl r).
Proof. exact (woa_best expf cosf m fit ds mt). Qed.
Print Assumptions C23_woa.

(** C23: and it does not raise when the schedules given have the right length. *)
Theorem C23_woa_total expf cosf m fit ds mt : wf_dims ds -> discrete_ok mt ds -> forall n, 1 <= n ->
  forall a0 b ngen ka kfac drs init, good_init ds n init -> ngen <> 0 ->
  (forall l, kfac = Some l -> length l = ngen) ->
  (forall l, ka = Some l -> length l = ngen /\ kfac <> None) ->
  exists r, woa_evolute expf cosf m fit ds mt n a0 b ngen ka kfac drs init = Some r.
Proof. exact (woa_total expf cosf m fit ds mt). Qed.
Print Assumptions C23_woa_total.

(** C23: a schedule for [a] without one for [fac] always raises (the wrong keyword is checked). *)
Theorem C23_woa_a_alone_refuted expf cosf m fit ds mt n a0 b ngen drs la init : ngen <> 0 ->
  woa_evolute expf cosf m fit ds mt n a0 b ngen (Some la) None drs init = None.
Proof. exact (woa_a_alone expf cosf m fit ds mt n a0 b ngen drs la init). Qed.
Print Assumptions C23_woa_a_alone_refuted.

(** C23: SSA. *)
Theorem C23_ssa expf m fit ds mt : wf_dims ds -> discrete_ok mt ds -> forall n, 1 <= n ->
  forall ngen c1 drs init r, good_init ds n init -> ssa_evolute expf m fit ds mt n ngen c1 drs init = Some r ->
  report m fit ds n 2 ngen init (pr_log r) (pr_bx r) (pr_by r) (pr_hg r) (pr_pop r) (pr_pf r) /\
  length (pr_hl r) = ngen /\ local_exact m fit n 2 (pr_log r) (pr_hl r).
Proof. exact (ssa_best expf m fit ds mt). Qed.
Print Assumptions C23_ssa.

Theorem C23_ssa_total expf m fit ds mt : wf_dims ds -> discrete_ok mt ds -> forall n, 1 <= n ->
  forall ngen c1 drs init, good_init ds n init -> ngen <> 0 -> (forall l, c1 = C1List l -> length l = ngen) ->
  exists r, ssa_evolute expf m fit ds mt n ngen c1 drs init = Some r.
Proof. exact (ssa_total expf m fit ds mt). Qed.
Print Assumptions C23_ssa_total.

(** C23: MFO (the initial moths are the first of [ngen] evaluated populations).  The reported
    local history is the best flame, which lags: entry k is the best of the first max(1,k)
    populations, not of population k. *)
Theorem C23_mfo expf cosf m fit ds mt : wf_dims ds -> discrete_ok mt ds -> forall n, 1 <= n ->
  forall b ngen kr drs init r, good_init ds n init -> mfo_evolute expf cosf m fit ds mt n b ngen kr drs init = Some r ->
  report m fit ds n 1 ngen init (pr_log r) (pr_bx r) (pr_by r) (pr_hg r) (pr_pop r) (pr_pf r) /\
  length (pr_hl r) = ngen /\
  (forall k v, nth_error (pr_hl r) k = Some v -> exists x, best_of m fit (firstn (n * max 1 k) (pr_log r)) x v).
Proof. exact (mfo_best_ok expf cosf m fit ds mt). Qed.
Print Assumptions C23_mfo.

Theorem C23_mfo_total expf cosf m fit ds mt : wf_dims ds -> discrete_ok mt ds -> forall n, 1 <= n ->
  forall b ngen kr drs init, good_init ds n init -> ngen <> 0 -> (forall l, kr = Some l -> length l = ngen) ->
  exists r, mfo_evolute expf cosf m fit ds mt n b ngen kr drs init = Some r.
Proof. exact (mfo_total expf cosf m fit ds mt). Qed.
Print Assumptions C23_mfo_total.

(** C23: JAYA. *)
Theorem C23_jaya expf m fit ds mt : wf_dims ds -> discrete_ok mt ds -> forall n, 1 <= n ->
  forall ngen drs init r, good_init ds n init -> jaya_evolute expf m fit ds mt ngen drs init = Some r ->
  report m fit ds n 2 ngen init (pr_log r) (pr_bx r) (pr_by r) (pr_hg r) (pr_pop r) (pr_pf r) /\
  length (pr_hl r) = ngen /\ local_exact m fit n 2 (pr_log r) (pr_hl r).
Proof. exact (jaya_best_ok expf m fit ds mt). Qed.
Print Assumptions C23_jaya.

Theorem C23_jaya_total expf m fit ds mt : wf_dims ds -> discrete_ok mt ds -> forall n, 1 <= n ->
  forall ngen drs init, good_init ds n init -> ngen <> 0 -> exists r, jaya_evolute expf m fit ds mt ngen drs init = Some r.
Proof. exact (jaya_total expf m fit ds mt). Qed.
Print Assumptions C23_jaya_total.

(** C23: in every generation of JAYA no individual gets worse, and the row taken as the worst
    solution is the one chosen from the initial population, for the whole run. *)
Theorem C23_jaya_rows expf m fit ds mt : wf_dims ds -> discrete_ok mt ds -> forall n, 1 <= n ->
  forall ngen drs init k st st', good_init ds n init ->
  gens (jaya_gen expf m fit ds mt ngen drs) 1 k (jaya_start m fit init) = Some st ->
  jaya_gen expf m fit ds mt ngen drs (S k) st = Some st' ->
  Forall2 (fun x f => (f == as_max m (fit x))%Q) (ja_pos st) (ja_fits st) /\
  Forall2 Qle (ja_fits st) (ja_fits st') /\ ja_worst st = ja_worst (jaya_start m fit init).
Proof. exact (jaya_rows expf m fit ds mt). Qed.
Print Assumptions C23_jaya_rows.

(** C23: so that row need not be the worst one any more. *)
Theorem C23_jaya_worst_refuted : exists st wi ws f0 f1,
  gens (jaya_gen one Mmin dm_fit dm_ds NearestInt 3 dm_j2) 1 1 (jaya_start Mmin dm_fit dm_init) = Some st /\
  ja_worst st = Some (wi, ws) /\ nth_error (ja_fits st) wi = Some f1 /\ nth_error (ja_fits st) 0 = Some f0 /\ (f0 < f1)%Q.
Proof. exact dm_jaya_worst. Qed.
Print Assumptions C23_jaya_worst_refuted.

(** The hypotheses are met by a mixed real/integer problem, and the runs improve on the initial
    population (whose best value is 125/4). *)
Example C23_demo_hyps : wf_dims dm_ds /\ good_init dm_ds 4 dm_init /\ (forall mt, mt <> OtherMethod -> discrete_ok mt dm_ds).
Proof. exact dm_ok. Qed.
Example C23_demo_woa : exists r, woa_evolute one dm_cos Mmin dm_fit dm_ds Sigmoid 4 2 1 3 None None dm_w dm_init = Some r /\ (pr_by r < 125#4)%Q /\ length (pr_log r) = 16.
Proof. exact (proj1 dm_runs). Qed.
Example C23_demo_ssa : exists r, ssa_evolute one Mmin dm_fit dm_ds NearestInt 4 3 (C1Scalar (1#2)) dm_s dm_init = Some r /\ (pr_by r < 125#4)%Q /\ length (pr_log r) = 16.
Proof. exact (proj1 (proj2 dm_runs)). Qed.
Example C23_demo_mfo : exists r, mfo_evolute one dm_cos Mmin dm_fit dm_ds NearestInt 4 1 3 None dm_m dm_init = Some r /\ (pr_by r < 125#4)%Q /\ length (pr_log r) = 12.
Proof. exact (proj1 (proj2 (proj2 dm_runs))). Qed.
Example C23_demo_jaya : exists r, jaya_evolute one Mmin dm_fit dm_ds NearestInt 3 dm_j dm_init = Some r /\ (pr_by r < 125#4)%Q /\ length (pr_log r) = 16.
Proof. exact (proj1 (proj2 (proj2 (proj2 dm_runs)))). Qed.
