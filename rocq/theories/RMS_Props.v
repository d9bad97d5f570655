(** C35 and C56: running statistics and the normalising environment wrapper. *)
From Coq Require Import List Arith ZArith QArith Bool Permutation.
From Verif Require Import Base RMS_Model RMS_Spec RMS_Proofs RMS_Norm RMS_Demo.
Import ListNotations.
Open Scope nat_scope.

(** C35: after any sequence of updates the state is, column by column, the mean and variance of
    every number fed in, pooled with [w] pseudo-observations of mean 0 and variance 1. *)
Theorem C35_exact w k bs st : (0 <= w)%Q -> rms_run (rms_new w k) bs = Some st -> exact_stats w k (concat bs) st.
Proof. exact (stats_exact w k bs st). Qed.
Print Assumptions C35_exact.
Example C35_exact_ex : exact_stats 0 2 rowsA stA.
Proof. exact (C35_exact 0 2 bsA stA (Qle_refl 0) runA). Qed.

(** With [epsilon = 0] these are exactly the mean and the variance. *)
Theorem C35_plain k bs st : rms_run (rms_new 0 k) bs = Some st ->
  forall j m v, nth_error (r_mean st) j = Some m -> nth_error (r_var st) j = Some v -> moments (column j (concat bs)) m v.
Proof. exact (stats_plain k bs st). Qed.
Print Assumptions C35_plain.
Example C35_plain_ex : moments [1; 2; 6]%Q (nth 0 (r_mean stA) 0%Q) (nth 0 (r_var stA) 0%Q).
Proof. exact (C35_plain 2 bsA stA runA 0 _ _ eq_refl eq_refl). Qed.

(** How the stream is cut into batches and in which order it comes does not matter. *)
Theorem C35_partition w k bs bs' st st' : (0 <= w)%Q -> concat bs <> [] -> Permutation (concat bs) (concat bs') ->
  rms_run (rms_new w k) bs = Some st -> rms_run (rms_new w k) bs' = Some st' -> same_stats st st'.
Proof. exact (stats_same w k bs bs' st st'). Qed.
Print Assumptions C35_partition.
Example C35_partition_ex : same_stats stA stB.
Proof. refine (C35_partition 0 2 bsA bsB stA stB (Qle_refl 0) _ permAB runA runB). discriminate. Qed.

(** The variance is never negative, and positive when [epsilon] is. *)
Theorem C35_variance w k bs st : (0 <= w)%Q -> rms_run (rms_new w k) bs = Some st -> (0 < w + rq (length (concat bs)))%Q ->
  Forall (fun v => 0 <= v /\ (0 < w -> 0 < v))%Q (r_var st).
Proof. exact (stats_var w k bs st). Qed.
Print Assumptions C35_variance.
Example C35_variance_ex : Forall (fun v => 0 <= v /\ (0 < 0 -> 0 < v))%Q (r_var stA).
Proof. exact (C35_variance 0 2 bsA stA (Qle_refl 0) runA eq_refl). Qed.

(** Non-empty batches of the right shape are always accepted. *)
Theorem C35_total w k bs : Forall (batch_ok k) bs -> exists st, rms_run (rms_new w k) bs = Some st.
Proof. exact (stats_total w k bs). Qed.
Print Assumptions C35_total.
Example C35_total_ex : exists st, rms_run (rms_new 0 2) bsA = Some st.
Proof. exact (C35_total 0 2 bsA okA). Qed.

(** The accumulator of sums used with several workers reports the same mean and variance,
    whatever the workers' shares and the rounds. *)
Theorem C35_workers w k rounds bs st j m v : (0 <= w)%Q -> (0 < w + rq (length (concat bs)))%Q -> Permutation (concat bs) (concat (map (@concat _) rounds)) ->
  rms_run (rms_new w k) bs = Some st -> nth_error (r_mean st) j = Some m -> nth_error (r_var st) j = Some v ->
  (mpi_mean (mpi_run (mpi_new w k) rounds) j == m /\ mpi_var (mpi_run (mpi_new w k) rounds) j == v)%Q.
Proof. exact (mpi_agrees w k rounds bs st j m v). Qed.
Print Assumptions C35_workers.
Example C35_workers_ex : (mpi_mean (mpi_run (mpi_new 0 2) roundsA) 1 == nth 1 (r_mean stA) 0 /\ mpi_var (mpi_run (mpi_new 0 2) roundsA) 1 == nth 1 (r_var stA) 0)%Q.
Proof. exact (C35_workers 0 2 roundsA bsA stA 1 _ _ (Qle_refl 0) eq_refl permAM runA eq_refl eq_refl). Qed.

(** C56: while training, the observation statistics are those of all observations returned by
    [step] (not those of [reset]), and the reward statistics those of the discounted returns of
    the running episodes after every step, with one zero per environment at each reset. *)
Theorem C56_statistics sqrtf p n k es st outs : 0 < n -> vp_train p = true -> Forall (event_ok n k) es -> vn_run sqrtf p (vnorm_new n k) es = Some (st, outs) ->
  exact_stats rms_eps k (step_obs es) (v_obs st) /\
  exact_stats rms_eps 1 (map (fun x => [x]) (returns_seen (vp_gamma p) (repeat 0%Q n) es)) (v_rrms st).
Proof. exact (fun N => vn_exact sqrtf p n k N es st outs). Qed.
Print Assumptions C56_statistics.
Example C56_statistics_ex : exact_stats rms_eps 1 (step_obs es0) (v_obs vst0) /\
  exact_stats rms_eps 1 (map (fun x => [x]) (returns_seen (1 # 2) (repeat 0%Q 2) es0)) (v_rrms vst0).
Proof. exact (C56_statistics sq0 par0 2 1 es0 vst0 (snd out0) (Nat.lt_0_succ 1) eq_refl evV runV). Qed.

(** Outside training nothing changes the statistics. *)
Theorem C56_frozen sqrtf p es : vp_train p = false -> forall st st' outs, vn_run sqrtf p st es = Some (st', outs) -> v_obs st' = v_obs st /\ v_rrms st' = v_rrms st.
Proof. exact (vn_frozen sqrtf p es). Qed.
Print Assumptions C56_frozen.
Example C56_frozen_ex : v_obs (fst out1) = v_obs vst0 /\ v_rrms (fst out1) = v_rrms vst0.
Proof. exact (C56_frozen sq0 par1 es0 eq_refl vst0 (fst out1) (snd out1) runV1). Qed.

(** Everything returned lies within the clipping bounds, for any square root and any history. *)
Theorem C56_clipped sqrtf p es : vp_nobs p = true -> vp_nrew p = true -> (0 <= vp_cobs p)%Q -> (0 <= vp_crew p)%Q ->
  forall st st' outs, vn_run sqrtf p st es = Some (st', outs) ->
  Forall (fun o => Forall (Forall (within (vp_cobs p))) (fst o) /\ Forall (within (vp_crew p)) (snd o)) outs.
Proof. exact (vn_within sqrtf p es). Qed.
Print Assumptions C56_clipped.
Example C56_clipped_ex : Forall (fun o => Forall (Forall (within 10)) (fst o) /\ Forall (within 10) (snd o)) (snd out0).
Proof. refine (C56_clipped sq0 par0 es0 eq_refl eq_refl _ _ _ vst0 (snd out0) runV); discriminate. Qed.

(** The observations returned last are the raw ones, centred and scaled with the statistics that
    already include them, and clipped; the raw ones stay available. *)
Theorem C56_observation sqrtf p es e st0 st outs : vn_run sqrtf p st0 (es ++ [e]) = Some (st, outs) ->
  vp_nobs p = true -> (0 <= vp_cobs p)%Q ->
  v_old st = event_obs e /\
  exists o r, nth_error outs (length es) = Some (o, r) /\ length o = length (event_obs e) /\
    forall i row j x m v, nth_error (event_obs e) i = Some row -> nth_error row j = Some x -> nth_error (r_mean (v_obs st)) j = Some m -> nth_error (r_var (v_obs st)) j = Some v ->
      exists orow y, nth_error o i = Some orow /\ nth_error orow j = Some y /\ clamped (vp_cobs p) ((x - m) / sqrtf (v + vp_eps p)%Q)%Q y.
Proof. exact (vn_value sqrtf p es e st0 st outs). Qed.
Print Assumptions C56_observation.
Example C56_observation_ex : v_old vst0 = [[5]; [2]]%Q.
Proof. refine (proj1 (C56_observation sq0 par0 _ _ _ _ _ runV2 eq_refl _)); discriminate. Qed.

(** The rewards returned are the raw ones, scaled by the deviation of the returns and clipped. *)
Theorem C56_reward sqrtf p es obs rews news st0 st outs : vn_run sqrtf p st0 (es ++ [Stepped obs rews news]) = Some (st, outs) ->
  vp_nrew p = true -> (0 <= vp_crew p)%Q ->
  v_oldr st = rews /\
  exists o r, nth_error outs (length es) = Some (o, r) /\
    Forall2 (fun x y => clamped (vp_crew p) (x / sqrtf (nth 0 (r_var (v_rrms st)) 0%Q + vp_eps p)%Q)%Q y) rews r.
Proof. exact (vn_reward_value sqrtf p es obs rews news st0 st outs). Qed.
Print Assumptions C56_reward.
Example C56_reward_ex : v_oldr vst0 = [1; 4]%Q.
Proof. refine (proj1 (C56_reward sq0 par0 _ _ _ _ _ _ _ runV2 eq_refl _)); discriminate. Qed.

(** Normalising keeps the order of two observations, coordinate by coordinate. *)
Theorem C56_order sqrtf p st a b : (forall x, (0 < x)%Q -> (0 < sqrtf x)%Q) -> Forall (fun v => 0 < v + vp_eps p)%Q (r_var st) ->
  Forall2 Qle a b -> Forall2 (Forall2 Qle) (normalize_obs sqrtf p st [a]) (normalize_obs sqrtf p st [b]).
Proof. exact (normalize_order sqrtf p st a b). Qed.
Print Assumptions C56_order.
Example C56_order_ex : Forall2 (Forall2 Qle) (normalize_obs sq0 par0 (v_obs vst0) [[1]])%Q (normalize_obs sq0 par0 (v_obs vst0) [[2]])%Q.
Proof. refine (C56_order sq0 par0 (v_obs vst0) [1]%Q [2]%Q _ posV _); [intros x H; exact H|repeat constructor; discriminate]. Qed.

(** And of two rewards. *)
Theorem C56_reward_order sqrtf p st a b : (forall x, (0 < x)%Q -> (0 < sqrtf x)%Q) -> (0 < nth 0 (r_var st) 0 + vp_eps p)%Q ->
  Forall2 Qle a b -> Forall2 Qle (normalize_reward sqrtf p st a) (normalize_reward sqrtf p st b).
Proof. exact (normalize_rew_order sqrtf p st a b). Qed.
Print Assumptions C56_reward_order.
Example C56_reward_order_ex : Forall2 Qle (normalize_reward sq0 par0 (v_rrms vst0) [1])%Q (normalize_reward sq0 par0 (v_rrms vst0) [2])%Q.
Proof. refine (C56_reward_order sq0 par0 (v_rrms vst0) [1]%Q [2]%Q _ posVr _); [intros x H; exact H|repeat constructor; discriminate]. Qed.

(** A run with answers of the right shape, from at least one environment, never fails. *)
Theorem C56_total sqrtf p n k : 0 < n -> forall es, Forall (event_ok n k) es -> exists r, vn_run sqrtf p (vnorm_new n k) es = Some r.
Proof. exact (vn_total sqrtf p n k). Qed.
Print Assumptions C56_total.
Example C56_total_ex : exists r, vn_run sq0 par0 (vnorm_new 2 1) es0 = Some r.
Proof. exact (C56_total sq0 par0 2 1 (Nat.lt_0_succ 1) es0 evV). Qed.
