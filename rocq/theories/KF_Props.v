(** The optimizer of ACKTR: C123. *)
From mathcomp Require Import all_ssreflect all_algebra.
From Verif Require Import KF_Model KF_Spec KF_Proofs KF_Clip KF_Final.
Set Implicit Arguments. Unset Strict Implicit. Unset Printing Implicit Defensive.
Import GRing.Theory Num.Theory.
Local Open Scope ring_scope.

(** C123: up to the number of accumulated runs, the statistics are the sum of those of the runs over that number; afterwards every run
    older than the newest weighs less by the decay. *)
Theorem C123_statistics : forall (R : rcfType) d N (decay : R) (news : seq 'M[R]_d),
  ((size news <= N)%N -> stats N decay news = N%:R^-1 *: \sum_(x <- news) x)
  /\ forall first later, news = first ++ later -> size first = N ->
     stats N decay news = decay ^+ size later *: (N%:R^-1 *: \sum_(x <- first) x)
       + (1 - decay) *: \sum_(i < size later) decay ^+ (size later - i.+1) *: nth 0 later i.
Proof. move=> R d N decay news; split; [exact: stats_mean|move=> first later ->; exact: stats_decay]. Qed.
Print Assumptions C123_statistics.

(** C123: the statistics of activations and of derivatives are symmetric and nonnegative after any batches, of any sizes. *)
Theorem C123_nonnegative : forall (R : rcfType) d N (decay : R) (batches : seq {b : nat & 'M[R]_(b, d)}), 0 <= decay <= 1 ->
  (symmetric (stats N decay [seq act_cov (projT2 X) | X <- batches]) /\ nonnegative (stats N decay [seq act_cov (projT2 X) | X <- batches]))
  /\ symmetric (stats N decay [seq grad_cov (projT2 X) | X <- batches]) /\ nonnegative (stats N decay [seq grad_cov (projT2 X) | X <- batches]).
Proof. move=> R d N decay batches H; exact: batches_good. Qed.
Print Assumptions C123_nonnegative.

(** C123: with orthogonal eigenvectors, the update U of a layer solves A U B + damping U = G, where A and B are the statistics without
    their eigenvalues of at most 1e-6, and G is the gradient. *)
Theorem C123_solves : forall (R : rcfType) (damping : R) (l : layer R), 0 < damping -> sound l ->
  let U := col_mx (weights_update damping l) (bias_update damping l) in
  matrix_of (act_Q l) (kept (act_e l)) *m U *m matrix_of (grad_Q l) (kept (grad_e l)) + damping *: U = col_mx (weights l) (bias l).
Proof. move=> R damping l Hd Hs; exact: solves_col. Qed.
Print Assumptions C123_solves.

(** C123: it is not the solution for the statistics themselves: an eigenvalue of 1e-6 counts as zero. *)
Theorem C123_dropped_refuted : forall R : rcfType, exists l : layer R, sound l /\ forall damping : R, 0 < damping ->
  let U := col_mx (weights_update damping l) (bias_update damping l) in
  matrix_of (act_Q l) (act_e l) *m U *m matrix_of (grad_Q l) (grad_e l) + damping *: U <> col_mx (weights l) (bias l).
Proof. move=> R; exact: dropped_col. Qed.
Print Assumptions C123_dropped_refuted.

(** C123: a step against the update never goes up to first order, and goes down unless the gradient of the layer is zero. *)
Theorem C123_descent : forall (R : rcfType) (damping : R) (l : layer R), 0 < damping ->
  0 <= inner (weights_update damping l) (weights l) + inner (bias_update damping l) (bias l)
  /\ (sound l -> weights l != 0 \/ bias l != 0 -> 0 < inner (weights_update damping l) (weights l) + inner (bias_update damping l) (bias l)).
Proof. move=> R damping l Hd; split; [exact: descent|exact: descent_strict]. Qed.
Print Assumptions C123_descent.

(** C123: the updates are scaled by a factor in (0, 1], which keeps the quadratic form within clip_kl and is 1 just when it already was. *)
Theorem C123_clip : forall (R : rcfType) (damping lr clip : R) (ls : seq (layer R)), 0 < damping -> 0 < clip ->
  let v := v_g damping lr ls in let s := scaling clip v in
  0 <= v /\ 0 < s <= 1 /\ s ^+ 2 * v <= clip /\ (s = 1 <-> v <= clip).
Proof. move=> R damping lr clip ls Hd Hc; split; [exact: v_g_ge0|apply: scaling_facts => //; exact: v_g_ge0]. Qed.
Print Assumptions C123_clip.

(** C123: the first cold_iter + 1 runs, and no later ones, make the update of the cold start, in whatever order the counters are read. *)
Theorem C123_cold : forall c rs i, (i < size rs)%N -> cold (made c rs i) = (i <= c)%N.
Proof. exact: made_cold. Qed.
Print Assumptions C123_cold.

(** C123: runs before number cold_iter make no other update, and runs after number cold_iter + 1 make one, with preconditioned gradients. *)
Theorem C123_order : forall c rs i, (i < size rs)%N ->
  ((i.+1 < c)%N -> made c rs i = Updates true None) /\ ((c < i)%N -> made c rs i = Updates false (Some true)).
Proof. move=> c rs i H; split; [exact: made_early|exact: made_late]. Qed.
Print Assumptions C123_order.

(** C123: one update per run is false: run number cold_iter + 1 makes both, in whatever order the counters are read. *)
Theorem C123_both_refuted : forall c rs, (c < size rs)%N -> cold (made c rs c) = true /\ kfac (made c rs c) <> None.
Proof. exact: made_both. Qed.
Print Assumptions C123_both_refuted.

(** C123: what runs number cold_iter and cold_iter + 1 do depends on that order: the former makes a second update just when the counter of
    cold runs is read late, and the latter preconditions its second update or not. *)
Theorem C123_race_refuted : forall c rs, (c < size rs)%N ->
  ((0 < c)%N -> kfac (made c rs c.-1) <> None <-> late_sgd (nth (Reads false false false) rs c.-1))
  /\ (late_factor (nth (Reads false false false) rs c) -> kfac (made c rs c) = Some true)
  /\ (all (fun r => ~~ late_stats r) (take c rs) -> ~~ late_factor (nth (Reads false false false) rs c) -> kfac (made c rs c) = Some false).
Proof. exact: race. Qed.
Print Assumptions C123_race_refuted.

(** C123: the statistics of a run are the means over its rows of the products of the activations, with a one for the bias, ... *)
Theorem C123_activations : forall (R : rcfType) b d (X : 'M[R]_(b, d)), (0 < b)%N ->
  (forall i j, act_cov X (lshift 1 i) (lshift 1 j) = (\sum_k X k i * X k j) / b%:R) /\
  (forall i, act_cov X (lshift 1 i) (rshift d 0) = (\sum_k X k i) / b%:R /\ act_cov X (rshift d 0) (lshift 1 i) = (\sum_k X k i) / b%:R) /\
  act_cov X (rshift d 0) (rshift d 0) = 1.
Proof. move=> R b d X; exact: activations. Qed.
Print Assumptions C123_activations.

(** C123: ... and the sums of the products of the derivatives times the number of rows: the means for derivatives of the sum of losses
    rather than of their mean. *)
Theorem C123_derivatives : forall (R : rcfType) b d (Y : 'M[R]_(b, d)) i j, (0 < b)%N -> grad_cov Y i j = b%:R * \sum_k Y k i * Y k j.
Proof. move=> R b d Y i j; exact: derivatives. Qed.
Print Assumptions C123_derivatives.
