(** Independent bits: a categorical distribution over 0 and 1 for each of them. *)
From Coq Require Import List Arith ZArith Reals Lra Lia.
From Verif Require Import PD_Model PD_Spec PD_Proofs PD_Race PD_Multi.
Import ListNotations.
Open Scope R_scope.

Lemma logistic_sigmoid : forall x, sigmoid x = logistic x.
Proof.
  intros x. unfold sigmoid, logistic. rewrite exp_Ropp. pose proof (exp_pos x). field. lra.
Qed.
Lemma logistic_range : forall x, 0 < logistic x < 1.
Proof.
  intros x. unfold logistic. pose proof (exp_pos x). split; [apply Rdiv_lt_0_compat; lra|].
  apply (Rmult_lt_reg_r (1 + exp x)); [lra|]. unfold Rdiv. rewrite Rmult_assoc, Rinv_l by lra. lra.
Qed.
Definition two (x : R) : list R := [0; x].
Lemma prob_two : forall x b, (b < 2)%nat -> prob (two x) b = bit_prob (logistic x) b.
Proof.
  intros x b Hb. unfold prob, two, bit_prob, logistic. cbn [map total fold_right]. rewrite exp_0. pose proof (exp_pos x).
  destruct b as [|[|b]]; [| |lia]; cbn [nth]; rewrite ?exp_0; field; lra.
Qed.
Lemma ln_logistic : forall x, ln (logistic x) = x - ln (1 + exp x).
Proof.
  intros x. pose proof (exp_pos x). unfold logistic, Rdiv. rewrite ln_mult; [|exact H|apply Rinv_0_lt_compat; lra]. rewrite ln_exp, ln_Rinv by lra. ring.
Qed.
Lemma ln_rest : forall x, ln (1 - logistic x) = - ln (1 + exp x).
Proof.
  intros x. pose proof (exp_pos x). replace (1 - logistic x) with (/ (1 + exp x)) by (unfold logistic; field; lra). apply ln_Rinv. lra.
Qed.
Lemma sigmoid_ce_eq : forall x z, sigmoid_ce x z = - (z * ln (logistic x) + (1 - z) * ln (1 - logistic x)).
Proof.
  intros x z. rewrite ln_logistic, ln_rest. unfold sigmoid_ce. pose proof (exp_pos x).
  destruct (Rle_lt_dec 0 x) as [H0|H0].
  - rewrite Rmax_left, Rabs_right by lra.
    assert (E : ln (1 + exp x) = x + ln (1 + exp (- x))).
    { rewrite <- (ln_exp x) at 2. rewrite <- ln_mult; [|exact H|pose proof (exp_pos (- x)); lra]. f_equal. rewrite exp_Ropp. field. lra. }
    rewrite E. ring.
  - rewrite Rmax_right, Rabs_left by lra. rewrite Ropp_involutive. ring.
Qed.
Lemma bits_tuples : forall n, bits n = tuples (repeat 2%nat n).
Proof. induction n; [reflexivity|]. cbn [bits repeat tuples actions seq flat_map]. rewrite <- IHn, app_nil_r. reflexivity. Qed.
Lemma two_sizes : forall l, sizes (map two l) = repeat 2%nat (length l).
Proof. induction l; [reflexivity|]. cbn. f_equal. exact IHl. Qed.
Lemma two_filled : forall l, filled (map two l).
Proof. induction l; constructor; [discriminate|exact IHl]. Qed.
Lemma bits_prob_tuple : forall l x, In x (bits (length l)) -> bits_prob l x = tuple_prob (map two l) x.
Proof.
  induction l; intros x Hx; rewrite bits_tuples in Hx; apply in_tuples in Hx; cbn [length repeat] in Hx; inversion Hx as [|b ? y ? Hb Hy]; subst; [reflexivity|].
  unfold bits_prob. cbn [combine map product fold_right fst snd]. rewrite tuple_cons, prob_two by exact Hb. f_equal. apply IHl. rewrite bits_tuples. apply in_tuples. exact Hy.
Qed.
Lemma bits_sum : forall l, total (map (bits_prob l) (bits (length l))) = 1.
Proof.
  intros l. rewrite (total_ext _ (tuple_prob (map two l))) by (intros; apply bits_prob_tuple; assumption).
  rewrite bits_tuples, <- two_sizes. apply tuple_sum, two_filled.
Qed.
Lemma bern_neglogp_prob : forall l x, In x (bits (length l)) -> exp (- bern_neglogp l x) = bits_prob l x.
Proof.
  induction l; intros x Hx; rewrite bits_tuples in Hx; apply in_tuples in Hx; cbn [length repeat] in Hx; inversion Hx as [|b ? y ? Hb Hy]; subst.
  - unfold bern_neglogp. cbn. rewrite Ropp_0. apply exp_0.
  - unfold bern_neglogp, bits_prob. cbn [combine map rsum product fold_right fst snd]. rewrite Ropp_plus_distr, exp_plus. f_equal.
    + rewrite sigmoid_ce_eq, Ropp_involutive. pose proof (logistic_range a). destruct b as [|[|b]]; [| |lia]; cbn [INR bit_prob].
      * replace (0 * ln (logistic a) + (1 - 0) * ln (1 - logistic a)) with (ln (1 - logistic a)) by ring. apply exp_ln. lra.
      * replace (1 * ln (logistic a) + (1 - 1) * ln (1 - logistic a)) with (ln (logistic a)) by ring. apply exp_ln. lra.
    + apply IHl. rewrite bits_tuples. apply in_tuples. exact Hy.
Qed.
Lemma two_entropy : forall x, cat_entropy (two x) = sigmoid_ce x (sigmoid x).
Proof.
  intros x. rewrite cat_entropy_eq by discriminate. rewrite sigmoid_ce_eq, logistic_sigmoid. unfold shannon. cbn [two length actions seq map total fold_right].
  rewrite !prob_two by lia. cbn [bit_prob]. ring.
Qed.
Lemma bern_entropy_eq : forall l, bern_entropy l = - total (map (fun x => bits_prob l x * ln (bits_prob l x)) (bits (length l))).
Proof.
  intros l. rewrite (total_ext _ (fun x => tuple_prob (map two l) x * ln (tuple_prob (map two l) x))) by (intros x Hx; rewrite bits_prob_tuple by exact Hx; reflexivity).
  rewrite bits_tuples, <- two_sizes, tuple_entropy by apply two_filled. unfold bern_entropy. rewrite rsum_total, map_map. apply total_ext. intros x _. symmetry. apply two_entropy.
Qed.
Lemma two_kl : forall x y, cat_kl (two x) (two y) = sigmoid_ce y (sigmoid x) - sigmoid_ce x (sigmoid x).
Proof.
  intros x y. rewrite cat_kl_eq by (discriminate || reflexivity). rewrite !sigmoid_ce_eq, logistic_sigmoid. unfold divergence. cbn [two length actions seq map total fold_right].
  rewrite !prob_two by lia. cbn [bit_prob]. pose proof (logistic_range x). pose proof (logistic_range y). unfold Rdiv.
  rewrite !ln_mult by (try lra; apply Rinv_0_lt_compat; lra). rewrite !ln_Rinv by lra. ring.
Qed.
Lemma bern_kl_facts : forall l m, length m = length l ->
  bern_kl l m = total (map (fun x => bits_prob l x * ln (bits_prob l x / bits_prob m x)) (bits (length l))) /\
  0 <= bern_kl l m /\ (bern_kl l m = 0 <-> m = l).
Proof.
  intros l m L.
  assert (E : bern_kl l m = total (map (fun lm => cat_kl (fst lm) (snd lm)) (combine (map two l) (map two m)))).
  { unfold bern_kl. rewrite !rsum_total. revert m L. induction l; intros m L; destruct m; try discriminate; [cbn; lra|].
    cbn [combine map total fold_right fst snd]. cbn in L. rewrite two_kl. specialize (IHl m ltac:(lia)). unfold total, rsum in *. cbn [fold_right] in *. rewrite <- IHl.
 ring. }
  assert (T : bern_kl l m = total (map (fun x => bits_prob l x * ln (bits_prob l x / bits_prob m x)) (bits (length l)))).
  { rewrite E, <- tuple_kl; [|apply two_filled|rewrite !two_sizes, L; reflexivity]. rewrite two_sizes, <- bits_tuples. apply total_ext. intros x Hx.
    rewrite (bits_prob_tuple l) by exact Hx. rewrite <- L in Hx. rewrite (bits_prob_tuple m) by exact Hx. reflexivity. }
  split; [exact T|]. rewrite E. clear E T. revert m L. induction l; intros m L; destruct m; try discriminate.
  - cbn. split; [lra|]. split; intros; [reflexivity|lra].
  - cbn [combine map total fold_right fst snd]. cbn in L. destruct (IHl m ltac:(lia)) as [P Q]. unfold total in P, Q.
    destruct (cat_kl_facts (two a) (two r)) as [P0 Q0]; [discriminate|reflexivity|]. split; [lra|]. split.
    + intros H. assert (H1 : cat_kl (two a) (two r) = 0) by lra. assert (H2 : fold_right Rplus 0 (map (fun lm => cat_kl (fst lm) (snd lm)) (combine (map two l) (map two m))) = 0) by lra.
      apply Q in H2. subst m. f_equal. destruct Q0 as [Q0 _]. specialize (Q0 H1 1%nat ltac:(cbn; lia)). rewrite !prob_two in Q0 by lia. cbn in Q0.
      assert (ln (1 - logistic a) = ln (1 - logistic r)) by congruence. assert (ln (logistic a) = ln (logistic r)) by congruence. rewrite !ln_rest in H0. rewrite !ln_logistic in H2. lra.
    + intros H. injection H as -> ->. assert (A1 : cat_kl (two a) (two a) = 0) by (apply Q0; intros; reflexivity). assert (A2 : fold_right Rplus 0 (map (fun lm => cat_kl (fst lm) (snd lm)) (combine (map two l) (map two l))) = 0) by (apply Q; reflexivity). lra.
Qed.
Lemma bern_entropy_bounds : forall l, 0 <= bern_entropy l <= INR (length l) * ln 2.
Proof.
  induction l; [cbn; lra|]. unfold bern_entropy in *. cbn [map rsum fold_right length]. rewrite S_INR. unfold rsum in IHl.
  destruct (cat_entropy_bounds (two a)) as [B _]; [discriminate|]. rewrite two_entropy in B. cbn [two length] in B. replace (INR 2) with 2 in B by (cbn; ring). lra.
Qed.
Lemma bern_mode_spec : forall l, In (bern_mode l) (bits (length l)) /\ forall y, In y (bits (length l)) -> bits_prob l y <= bits_prob l (bern_mode l).
Proof.
  induction l; [split; [left; reflexivity|intros y [<-|[]]; apply Rle_refl]|]. destruct IHl as [I B].
  set (b := if Rlt_dec (1 / 2) (sigmoid a) then 1%nat else 0%nat). assert (Hb : (b < 2)%nat) by (unfold b; destruct (Rlt_dec _ _); lia).
  assert (I' : In (bern_mode (a :: l)) (bits (length (a :: l)))).
  { rewrite bits_tuples. apply in_tuples. cbn [length repeat]. change (bern_mode (a :: l)) with (b :: bern_mode l). constructor; [exact Hb|]. apply in_tuples. rewrite <- bits_tuples. exact I. }
  split; [exact I'|]. intros y Hy. rewrite bits_tuples in Hy. apply in_tuples in Hy. cbn [length repeat] in Hy. inversion Hy as [|c ? z ? Hc Hz]; subst.
  change (bern_mode (a :: l)) with (b :: bern_mode l). unfold bits_prob in *. cbn [combine map product fold_right fst snd].
  assert (Iz : In z (bits (length l))) by (rewrite bits_tuples; apply in_tuples; exact Hz).
  pose proof (logistic_range a). apply Rmult_le_compat.
  - destruct c; cbn; lra.
  - assert (0 < bits_prob l z); [|unfold bits_prob in *; unfold product in *; lra]. rewrite bits_prob_tuple by exact Iz. apply tuple_prob_pos; [apply two_filled|]. rewrite map_length.
    rewrite bits_tuples in Iz. apply in_tuples in Iz. apply Forall2_length in Iz. rewrite repeat_length in Iz. exact Iz.
  - unfold b. rewrite logistic_sigmoid. destruct (Rlt_dec (1 / 2) (logistic a)); destruct c as [|[|c]]; cbn; try lia; lra.
  - apply B. exact Iz.
Qed.
Lemma bern_sample_spec : forall l u, length u = length l -> In (bern_sample l u) (bits (length l)) /\
  forall j, (j < length l)%nat -> (nth j (bern_sample l u) 0%nat = 1%nat <-> nth j u 0 < logistic (nth j l 0)).
Proof.
  induction l; intros u L; destruct u; try discriminate.
  - split; [left; reflexivity|intros j Hj; cbn in Hj; lia].
  - cbn in L. destruct (IHl u ltac:(lia)) as [I B]. split.
    + rewrite bits_tuples in *. apply in_tuples. unfold bern_sample. cbn [combine map length repeat fst snd]. constructor; [destruct (Rlt_dec _ _); lia|]. apply in_tuples. exact I.
    + intros [|j] Hj; [|cbn in Hj; apply (B j); lia]. cbn. rewrite logistic_sigmoid. destruct (Rlt_dec r (logistic a)); split; intros; try lra; try discriminate; reflexivity.
Qed.
