(** Sampling from a categorical distribution with the Gumbel-max trick. *)
From Coq Require Import List Arith ZArith Reals Lra Lia Bool.
From Verif Require Import PD_Model PD_Spec PD_Proofs.
Import ListNotations.
Open Scope R_scope.

Definition xle (x y : option R) : Prop := xlt y x = false.
Lemma xle_trans : forall x y z, xle x y -> xle y z -> xle x z.
Proof. intros [x|] [y|] [z|]; unfold xle; cbn; intros; try discriminate; try reflexivity. apply rlt_no in H, H0. apply rlt_no. lra. Qed.
Lemma xle_refl : forall x, xle x x.
Proof. intros [x|]; unfold xle; cbn; [|reflexivity]. apply rlt_no. lra. Qed.
Lemma xlt_xle : forall x y, xlt x y = true -> xle x y.
Proof. intros [x|] [y|]; unfold xle; cbn; intros; try discriminate; try reflexivity. apply rlt_yes in H. apply rlt_no. lra. Qed.
Lemma xargmax_iff : forall l i, argmax xlt l = Some i <-> first_max xlt xle None l i.
Proof.
  intros. apply argmax_iff; [intros; reflexivity|exact xlt_xle|exact xle_trans|exact xle_refl].
Qed.

Lemma nth_gumbel : forall l u j, length u = length l -> (j < length l)%nat -> nth j (map gumbel (combine l u)) None = gumbel (nth j l 0, nth j u 0).
Proof.
  induction l; intros u j L H; cbn [length] in H; [lia|]. destruct u; [discriminate|]. destruct j; cbn [combine map nth]; [reflexivity|].
  apply IHl; cbn in L; lia.
Qed.
Lemma cat_sample_valid : forall l u, l <> [] -> length u = length l -> exists i, cat_sample l u = Some i /\ (i < length l)%nat.
Proof.
  intros l u N L. unfold cat_sample. destruct (argmax xlt (map gumbel (combine l u))) as [i|] eqn:E.
  - exists i. split; [reflexivity|]. apply xargmax_iff in E. destruct E as [E _]. rewrite map_length, combine_length, L in E. lia.
  - destruct l, u; try congruence; discriminate.
Qed.

(** One comparison of the race. *)
Lemma neg_ln : forall u, 0 < u < 1 -> 0 < - ln u.
Proof. intros u [H1 H2]. apply ln_increasing in H2; [|exact H1]. rewrite ln_1 in H2. lra. Qed.
Lemma race : forall l i j ui uj, l <> [] -> 0 < ui < 1 -> 0 < uj < 1 ->
  nth j l 0 - ln (- ln uj) <= nth i l 0 - ln (- ln ui) <-> uj <= Rpower ui (prob l j / prob l i).
Proof.
  intros l i j ui uj N Hi Hj. pose proof (neg_ln _ Hi) as Ai. pose proof (neg_ln _ Hj) as Aj.
  assert (R : prob l j / prob l i = exp (nth j l 0 - nth i l 0)).
  { unfold prob. pose proof (z_pos l N). pose proof (exp_pos (nth i l 0)). unfold Rminus. rewrite exp_plus, exp_Ropp. field. split; lra. }
  rewrite R. unfold Rpower. set (d := nth j l 0 - nth i l 0).
  assert (E1 : nth j l 0 - ln (- ln uj) <= nth i l 0 - ln (- ln ui) <-> - ln ui * exp d <= - ln uj).
  { split; intros H.
    - assert (ln (- ln ui) + d <= ln (- ln uj)) by (unfold d; lra). rewrite <- (ln_exp d), <- ln_mult in H0; [|exact Ai|apply exp_pos].
      destruct (Rle_lt_dec (- ln ui * exp d) (- ln uj)) as [|C]; [assumption|]. apply ln_increasing in C; [lra|exact Aj].
    - assert (ln (- ln ui) + d <= ln (- ln uj)); [|unfold d in *; lra]. rewrite <- (ln_exp d), <- ln_mult; [|exact Ai|apply exp_pos].
      destruct H as [H|H]; [left; apply ln_increasing; [apply Rmult_lt_0_compat; [exact Ai|apply exp_pos]|exact H]|rewrite H; lra]. }
  rewrite E1. split; intros H.
  - rewrite <- (exp_ln uj) by lra. assert (L : ln uj <= exp d * ln ui) by lra. destruct L as [L|L]; [left; apply exp_increasing; exact L|rewrite L; lra].
  - rewrite <- (exp_ln uj) in H by lra. destruct (Rle_lt_dec (- ln ui * exp d) (- ln uj)) as [|C]; [assumption|].
    assert (exp d * ln ui < ln uj) by lra. apply exp_increasing in H0. lra.
Qed.
Lemma power_unit : forall u a, 0 < u < 1 -> 0 < a -> 0 < Rpower u a < 1.
Proof.
  intros u a H A. unfold Rpower. split; [apply exp_pos|]. rewrite <- exp_0. apply exp_increasing. pose proof (neg_ln _ H).
  assert (0 < a * - ln u) by (apply Rmult_lt_0_compat; lra). lra.
Qed.
Lemma cat_sample_iff : forall l u i, length u = length l -> Forall (fun x => 0 < x < 1) u -> (i < length l)%nat ->
  cat_sample l u = Some i <->
  (forall j, (j < i)%nat -> nth j u 0 < Rpower (nth i u 0) (prob l j / prob l i)) /\
  (forall j, (i < j < length l)%nat -> nth j u 0 <= Rpower (nth i u 0) (prob l j / prob l i)).
Proof.
  intros l u i L F Hi. assert (N : l <> []) by (destruct l; [cbn in Hi; lia|congruence]).
  assert (U : forall j, (j < length l)%nat -> 0 < nth j u 0 < 1) by (intros j Hj; rewrite Forall_forall in F; apply F, nth_In; lia).
  assert (G : forall j, (j < length l)%nat -> nth j (map gumbel (combine l u)) None = Some (nth j l 0 - ln (- ln (nth j u 0)))).
  { intros j Hj. rewrite nth_gumbel by assumption. unfold gumbel. cbn [fst snd]. destruct (Req_EM_T (nth j u 0) 0); [pose proof (U j Hj); lra|reflexivity]. }
  unfold cat_sample. rewrite xargmax_iff. unfold first_max. rewrite map_length, combine_length, L, Nat.min_id. split.
  - intros [_ [H2 H3]]. split; intros j Hj.
    + pose proof (H3 j Hj) as C. rewrite !G in C by lia. cbn in C. apply rlt_yes in C.
      apply Rnot_le_lt. intros D.
      assert (Q : Rpower (nth i u 0) (prob l j / prob l i) <= nth j u 0) by exact D.
      assert (T : nth i l 0 - ln (- ln (nth i u 0)) <= nth j l 0 - ln (- ln (nth j u 0))).
      { apply (race l j i); try exact N; try (apply U; lia).
        pose proof (prob_pos l N i) as Pi. pose proof (prob_pos l N j) as Pj.
        assert (Rpower (Rpower (nth i u 0) (prob l j / prob l i)) (prob l i / prob l j) = nth i u 0).
        { rewrite Rpower_mult. replace (prob l j / prob l i * (prob l i / prob l j)) with 1 by (field; lra). apply Rpower_1. apply U; lia. }
        rewrite <- H at 1. apply Rle_Rpower_l; [apply Rlt_le, Rdiv_lt_0_compat; assumption|]. split; [apply exp_pos|exact Q]. }
      lra.
    + pose proof (H2 j ltac:(lia)) as C. unfold xle in C. rewrite !G in C by lia. cbn in C. apply rlt_no in C.
      apply race; try exact N; try (apply U; lia). exact C.
  - intros [H1 H2]. split; [exact Hi|]. split.
    + intros j Hj. unfold xle. rewrite !G by lia. cbn. apply rlt_no. apply race; try exact N; try (apply U; lia).
      destruct (lt_eq_lt_dec j i) as [[D| ->]|D]; [apply Rlt_le, H1; exact D| |apply H2; lia].
      pose proof (prob_pos l N i). replace (prob l i / prob l i) with 1 by (field; lra). rewrite Rpower_1 by (apply U; lia). lra.
    + intros j Hj. rewrite !G by lia. cbn. apply rlt_yes. pose proof (H1 j Hj) as C. apply Rnot_le_lt. intros D.
      assert (nth i u 0 <= Rpower (nth j u 0) (prob l i / prob l j)) by (apply race; try exact N; try (apply U; lia); exact D).
      pose proof (prob_pos l N i) as Pi. pose proof (prob_pos l N j) as Pj.
      assert (Rpower (nth i u 0) (prob l j / prob l i) <= nth j u 0); [|lra].
      assert (E : Rpower (Rpower (nth j u 0) (prob l i / prob l j)) (prob l j / prob l i) = nth j u 0).
      { rewrite Rpower_mult. replace (prob l i / prob l j * (prob l j / prob l i)) with 1 by (field; lra). apply Rpower_1. apply U; lia. }
      apply Rle_trans with (Rpower (Rpower (nth j u 0) (prob l i / prob l j)) (prob l j / prob l i)); [|rewrite E; lra].
      apply Rle_Rpower_l; [apply Rlt_le, Rdiv_lt_0_compat; assumption|]. split; [apply U; lia|exact H].
Qed.

(** ** The chance of an action *)
Lemma others_total : forall (f : nat -> R) n i, (i < n)%nat -> total (map f (actions n)) = f i + total (map f (others n i)).
Proof.
  intros f n i Hi. unfold others. assert (ND : NoDup (actions n)) by apply seq_NoDup. assert (HI : In i (actions n)) by (apply in_seq; lia).
  revert ND HI. generalize (actions n). induction l as [|a t IH]; intros ND HI; [destruct HI|]. inversion ND; subst. cbn [filter map]. destruct (Nat.eqb_spec a i) as [->|D]; cbn [negb].
  - assert (E : filter (fun j => negb (j =? i)%nat) t = t).
    { clear - H1. induction t; [reflexivity|]. cbn. destruct (Nat.eqb_spec a i) as [->|]; [exfalso; apply H1; left; reflexivity|]. cbn. f_equal. apply IHt. intros C; apply H1; right; exact C. }
    rewrite E. reflexivity.
  - cbn [map]. destruct HI as [->|HI]; [congruence|]. cbn [total fold_right]. unfold total in IH. rewrite IH by assumption. ring.
Qed.
Lemma product_power : forall u (f : nat -> R) (s : list nat), product (map (fun j => Rpower u (f j)) s) = Rpower u (total (map f s)) \/ (s = [] /\ True).
Proof. intros. destruct s; [right; split; auto|]. left. revert n. induction s; intros n; cbn [map product total fold_right].
  - rewrite Rmult_1_r, Rplus_0_r. reflexivity.
  - rewrite Rpower_plus. f_equal. apply (IHs a).
Qed.
Lemma product_power' : forall u (f : nat -> R) (s : list nat), 0 < u -> product (map (fun j => Rpower u (f j)) s) = Rpower u (total (map f s)).
Proof. intros u f s H. destruct (product_power u f s) as [E|[-> _]]; [exact E|]. cbn. symmetry. apply Rpower_O. exact H. Qed.
Lemma others_ratio : forall l i, l <> [] -> (i < length l)%nat -> total (map (fun j => prob l j / prob l i) (others (length l) i)) = / prob l i - 1.
Proof.
  intros l i N Hi. pose proof (prob_pos l N i) as P. pose proof (prob_sum l N) as S1. rewrite (others_total (prob l) _ i Hi) in S1.
  rewrite (total_ext _ (fun j => / prob l i * prob l j)) by (intros; unfold Rdiv; ring). rewrite total_scal.
  replace (total (map (prob l) (others (length l) i))) with (1 - prob l i) by lra. field. lra.
Qed.
Lemma prob_le_1 : forall l i, l <> [] -> (i < length l)%nat -> prob l i <= 1.
Proof.
  intros l i N Hi. pose proof (prob_sum l N) as S1. rewrite (others_total (prob l) _ i Hi) in S1.
  assert (0 <= total (map (prob l) (others (length l) i))); [|lra].
  generalize (others (length l) i). induction l0; cbn; [lra|]. pose proof (prob_pos l N a). unfold total in IHl0. lra.
Qed.
(** Each action is drawn for some uniform numbers. *)
Lemma cat_reachable : forall l i, (i < length l)%nat -> exists u, length u = length l /\ Forall (fun x => 0 < x < 1) u /\ cat_sample l u = Some i.
Proof.
  intros l i Hi. assert (N : l <> []) by (destruct l; [cbn in Hi; lia|congruence]).
  set (g := fun j => if (j =? i)%nat then 1 / 2 else Rpower (1 / 2) (prob l j / prob l i) / 2).
  assert (G : forall j, 0 < g j < 1).
  { intros j. unfold g. destruct (j =? i)%nat; [lra|]. pose proof (power_unit (1 / 2) (prob l j / prob l i) ltac:(lra)) as Q.
    assert (0 < prob l j / prob l i) by (apply Rdiv_lt_0_compat; apply prob_pos; exact N). specialize (Q H). lra. }
  exists (map g (seq 0 (length l))). assert (LN : length (map g (seq 0 (length l))) = length l) by (rewrite map_length, seq_length; reflexivity).
  assert (NT : forall j, (j < length l)%nat -> nth j (map g (seq 0 (length l))) 0 = g j).
  { intros j Hj. rewrite (nth_indep _ 0 (g 0%nat)) by lia. rewrite map_nth. rewrite seq_nth by exact Hj. reflexivity. }
  assert (FF : Forall (fun x => 0 < x < 1) (map g (seq 0 (length l)))) by (rewrite Forall_map, Forall_forall; intros; apply G).
  split; [exact LN|]. split; [exact FF|]. apply cat_sample_iff; try assumption.
  assert (Q : forall j, (j < length l)%nat -> j <> i -> nth j (map g (seq 0 (length l))) 0 < Rpower (nth i (map g (seq 0 (length l))) 0) (prob l j / prob l i)).
  { intros j Hj D. rewrite !NT by assumption. unfold g. rewrite Nat.eqb_refl. destruct (Nat.eqb_spec j i); [congruence|].
    pose proof (exp_pos (prob l j / prob l i * ln (1 / 2))). unfold Rpower. lra. }
  split; intros j Hj; [apply Q; lia|apply Rlt_le, Q; lia].
Qed.
