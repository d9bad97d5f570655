(** The statements about distributions as they are listed. *)
From Coq Require Import List Arith ZArith Reals Lra Lia.
From Verif Require Import PD_Model PD_Spec PD_Proofs PD_Race PD_Multi PD_Bern PD_Gauss.
Import ListNotations.
Open Scope R_scope.

Lemma ne_of : forall (l : list R) i, (i < length l)%nat -> l <> [].
Proof. intros [|x l] i H; [cbn in H; lia|congruence]. Qed.
Lemma cat_neglogp_final : forall l i, (i < length l)%nat -> exp (- cat_neglogp l (Z.of_nat i)) = prob l i.
Proof. intros l i H. apply cat_neglogp_prob; [eapply ne_of; exact H|exact H]. Qed.
Lemma cat_entropy_final : forall l, l <> [] -> cat_entropy l = shannon (length l) (prob l) /\ 0 <= cat_entropy l <= ln (INR (length l)) /\
  (cat_entropy l = ln (INR (length l)) <-> forall i j, (i < length l)%nat -> (j < length l)%nat -> nth i l 0 = nth j l 0).
Proof. intros l N. split; [apply cat_entropy_eq; exact N|]. apply cat_entropy_bounds. exact N. Qed.
Lemma cat_kl_final : forall l m, l <> [] -> length m = length l ->
  cat_kl l m = divergence (length l) (prob l) (prob m) /\ 0 <= cat_kl l m /\ (cat_kl l m = 0 <-> exists c, m = map (fun x => x + c) l).
Proof.
  intros l m N L. split; [apply cat_kl_eq; assumption|]. destruct (cat_kl_facts l m N L) as [A B]. split; [exact A|]. rewrite B. apply prob_same; assumption.
Qed.
Lemma gauss_mode_final : forall ms ss x vx, length ss = length ms -> length x = length ms -> gauss_neglogp (ms ++ ss) x = Some vx ->
  gauss_mode (ms ++ ss) = Some ms /\ exists vm, gauss_neglogp (ms ++ ss) ms = Some vm /\ vm <= vx /\ (vx = vm <-> x = ms).
Proof.
  intros ms ss x vx L1 L2 E. rewrite gauss_neglogp_eq in E by assumption. injection E as <-. destruct (gauss_mode_best ms ss x L1 L2) as [A [B C]].
  split; [exact A|]. exists (nl ms ss ms). split; [apply gauss_neglogp_eq; congruence|]. split; [exact B|exact C].
Qed.
Lemma gauss_average_final : forall d ms ss nl0, length ss = length ms -> has_moments d ms (map exp ss) ->
  (forall w x, In (w, x) d -> gauss_neglogp (ms ++ ss) x = Some (nl0 x)) -> gauss_entropy (ms ++ ss) = Some (average d nl0).
Proof.
  intros d ms ss nl0 L M H. rewrite (entropy_average d ms ss L M). f_equal. apply average_ext. intros w x Hx.
  assert (E : gauss_neglogp (ms ++ ss) x = Some (nl ms ss x)) by (apply gauss_neglogp_eq; [exact L|]; destruct M as [_ [M _]]; eapply M; exact Hx).
  rewrite (H w x Hx) in E. injection E as ->. reflexivity.
Qed.
Lemma gauss_kl_final : forall d ms ss ms' ss' nl0 nl1, length ss = length ms -> length ms' = length ms -> length ss' = length ms -> has_moments d ms (map exp ss) ->
  (forall w x, In (w, x) d -> gauss_neglogp (ms ++ ss) x = Some (nl0 x) /\ gauss_neglogp (ms' ++ ss') x = Some (nl1 x)) ->
  gauss_kl (ms ++ ss) (ms' ++ ss') = Some (average d (fun x => nl1 x - nl0 x)).
Proof.
  intros d ms ss ms' ss' nl0 nl1 L L1 L2 M H. rewrite (kl_average d ms ss L M ms' ss' L1 L2). f_equal.
  assert (LX : forall w x, In (w, x) d -> length x = length ms) by (destruct M as [_ [M _]]; exact M).
  rewrite (average_ext d (fun x => nl1 x - nl0 x) (fun x => nl ms' ss' x + -1 * nl ms ss x)).
  - rewrite (average_plus d (nl ms' ss') (fun x => -1 * nl ms ss x)), (average_scal d (-1) (nl ms ss)). ring.
  - intros w x Hx. destruct (H w x Hx) as [E0 E1]. rewrite gauss_neglogp_eq in E0 by (try congruence; eapply LX; exact Hx).
    rewrite gauss_neglogp_eq in E1 by (try congruence; rewrite L1; eapply LX; exact Hx). injection E0 as ->. injection E1 as ->. ring.
Qed.
Lemma multi_final : forall nvec flat ls, parts nvec flat ls -> Forall (fun n => (0 < n)%nat) nvec -> nvec <> [] ->
  (forall x, In x (tuples nvec) -> exists v, multi_neglogp nvec flat (map Z.of_nat x) = Some v /\ exp (- v) = tuple_prob ls x) /\
  total (map (tuple_prob ls) (tuples nvec)) = 1.
Proof. intros nvec flat ls P F N. split; [apply multi_neglogp_spec; assumption|apply (multi_sum nvec flat); assumption]. Qed.
Lemma multi_wrong : forall nvec flat, fold_right Nat.add 0%nat nvec <> length flat -> multi_entropy nvec flat = None /\ multi_mode nvec flat = None.
Proof.
  intros nvec flat H. unfold multi_entropy, multi_mode. destruct (split_at nvec flat) as [ls|] eqn:E; [|split; reflexivity].
  apply split_at_iff in E. destruct E as [-> <-]. exfalso. apply H. clear. induction ls; [reflexivity|]. cbn. rewrite app_length, IHls. reflexivity.
Qed.
Lemma bern_final : forall l, (forall x, In x (bits (length l)) -> exp (- bern_neglogp l x) = bits_prob l x) /\ total (map (bits_prob l) (bits (length l))) = 1.
Proof. intros l. split; [apply bern_neglogp_prob|apply bits_sum]. Qed.
Lemma bern_entropy_final : forall l, bern_entropy l = - total (map (fun x => bits_prob l x * ln (bits_prob l x)) (bits (length l))) /\ 0 <= bern_entropy l <= INR (length l) * ln 2.
Proof. intros l. split; [apply bern_entropy_eq|apply bern_entropy_bounds]. Qed.
