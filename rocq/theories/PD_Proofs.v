(** Categorical distributions: probabilities, entropy, divergence, mode. *)
From Coq Require Import List Arith ZArith Reals Lra Lia.
From Verif Require Import PD_Model PD_Spec.
Import ListNotations.
Open Scope R_scope.

Lemma rsum_total : forall l, rsum l = total l.
Proof. reflexivity. Qed.
Lemma total_ext : forall {A} (f g : A -> R) l, (forall x, In x l -> f x = g x) -> total (map f l) = total (map g l).
Proof. induction l; intros H; [reflexivity|]. cbn. rewrite H by (left; reflexivity). unfold total in IHl. rewrite IHl; [reflexivity|]. intros; apply H; right; assumption. Qed.
Lemma total_scal : forall {A} (f : A -> R) c l, total (map (fun x => c * f x) l) = c * total (map f l).
Proof. induction l; cbn; [ring|]. unfold total in IHl. rewrite IHl. ring. Qed.
Lemma total_plus : forall {A} (f g : A -> R) l, total (map (fun x => f x + g x) l) = total (map f l) + total (map g l).
Proof. induction l; cbn; [ring|]. unfold total in IHl. rewrite IHl. ring. Qed.
Lemma total_le : forall {A} (f g : A -> R) l, (forall x, In x l -> f x <= g x) -> total (map f l) <= total (map g l).
Proof. induction l; intros H; cbn; [lra|]. pose proof (H a (or_introl eq_refl)). assert (total (map f l) <= total (map g l)) by (apply IHl; intros; apply H; right; assumption). unfold total in *. lra. Qed.
Lemma total_eq_all : forall {A} (f g : A -> R) l, (forall x, In x l -> f x <= g x) -> total (map f l) = total (map g l) -> forall x, In x l -> f x = g x.
Proof.
  induction l; intros H E x Hx; [destruct Hx|]. cbn in E. pose proof (H a (or_introl eq_refl)).
  assert (total (map f l) <= total (map g l)) by (apply total_le; intros; apply H; right; assumption). unfold total in *.
  destruct Hx as [<-|Hx]; [lra|]. apply IHl; [intros; apply H; right; assumption|lra|assumption].
Qed.
Lemma total_pos : forall l, l <> [] -> Forall (fun x => 0 < x) l -> 0 < total l.
Proof. intros l N F. destruct F; [congruence|]. cbn. assert (0 <= fold_right Rplus 0 l); [|lra]. clear - F. induction F; cbn; lra. Qed.
Lemma total_nth : forall (f : R -> R) l, total (map f l) = total (map (fun i => f (nth i l 0)) (actions (length l))).
Proof.
  intros f l. unfold actions. induction l; [reflexivity|]. cbn [length seq map]. rewrite <- seq_shift, map_map. cbn. unfold total in IHl. rewrite IHl. reflexivity.
Qed.
Lemma total_const : forall {A} c (l : list A), total (map (fun _ => c) l) = INR (length l) * c.
Proof. induction l; [cbn; ring|]. cbn [map total fold_right length]. unfold total in IHl. rewrite IHl, S_INR. ring. Qed.
Lemma combine_nth2 : forall {A B} (l : list A) (m : list B) a b, length l = length m ->
  combine l m = map (fun i => (nth i l a, nth i m b)) (seq 0 (length l)).
Proof.
  induction l; intros m a0 b0 L; destruct m; try discriminate; [reflexivity|]. cbn [combine length seq map nth]. f_equal.
  rewrite <- seq_shift, map_map. cbn [nth]. apply IHl. cbn in L. lia.
Qed.

(** ** Probabilities *)
Section Cat.
  Variable l : list R.
  Hypothesis N : l <> [].
  Let Z := total (map exp l).
  Lemma z_pos : 0 < Z.
  Proof. apply total_pos; [destruct l; cbn; congruence|]. rewrite Forall_map, Forall_forall. intros; apply exp_pos. Qed.
  Lemma prob_pos : forall i, 0 < prob l i.
  Proof. intros i. unfold prob. apply Rdiv_lt_0_compat; [apply exp_pos|exact z_pos]. Qed.
  Lemma prob_sum : total (map (prob l) (actions (length l))) = 1.
  Proof.
    unfold prob. rewrite (total_ext _ (fun i => / Z * exp (nth i l 0))) by (intros; unfold Z; field; apply Rgt_not_eq, z_pos).
    rewrite total_scal, <- (total_nth exp). fold Z. field. apply Rgt_not_eq, z_pos.
  Qed.
  Lemma zsum_eq : zsum l = Z * exp (- rmax l).
  Proof.
    unfold zsum, shifted. rewrite map_map, rsum_total. rewrite (total_ext _ (fun x => exp (- rmax l) * exp x)).
    - rewrite total_scal. unfold Z. ring.
    - intros x _. rewrite <- exp_plus. f_equal. ring.
  Qed.
  Lemma zsum_pos : 0 < zsum l.
  Proof. rewrite zsum_eq. apply Rmult_lt_0_compat; [exact z_pos|apply exp_pos]. Qed.
  Lemma ln_zsum : ln (zsum l) = ln Z - rmax l.
  Proof. rewrite zsum_eq, ln_mult; [|exact z_pos|apply exp_pos]. rewrite ln_exp. ring. Qed.
  Lemma ln_prob : forall i, ln (prob l i) = nth i l 0 - ln Z.
  Proof.
    intros i. unfold prob. fold Z. unfold Rdiv. rewrite ln_mult; [|apply exp_pos|apply Rinv_0_lt_compat, z_pos].
    rewrite ln_exp, ln_Rinv by exact z_pos. ring.
  Qed.
  Lemma soft_p : forall x, exp (x - rmax l) / zsum l = exp x / Z.
  Proof.
    intros x. rewrite zsum_eq. replace (x - rmax l) with (x + - rmax l) by ring. rewrite exp_plus. pose proof z_pos. pose proof (exp_pos (- rmax l)). field. lra.
  Qed.

  Lemma cat_neglogp_eq : forall i, (i < length l)%nat -> cat_neglogp l (Z.of_nat i) = - ln (prob l i).
  Proof.
    intros i Hi. rewrite ln_prob. unfold cat_neglogp, softmax_ce, one_hot, shifted.
    rewrite ln_zsum. set (c := ln Z). set (k := rmax l). clearbody c k. clear Z.
    assert (G : forall m b, (b <= i)%nat -> (i < b + length m)%nat ->
      rsum (map (fun yl => fst yl * (c - k - snd yl)) (combine (map (fun j => if (Z.of_nat i =? Z.of_nat j)%Z then 1 else 0) (seq b (length m))) (map (fun x => x - k) m))) = - (nth (i - b) m 0 - c)).
    { induction m; intros b Hb Hl; cbn [length] in Hl; [lia|]. cbn [length seq map combine rsum fold_right fst snd].
      destruct (Z.eqb_spec (Z.of_nat i) (Z.of_nat b)).
      - assert (i = b) by lia. subst b. rewrite Nat.sub_diag. cbn [nth].
        assert (E0 : forall m b, (i < b)%nat -> rsum (map (fun yl => fst yl * (c - k - snd yl)) (combine (map (fun j => if (Z.of_nat i =? Z.of_nat j)%Z then 1 else 0) (seq b (length m))) (map (fun x => x - k) m))) = 0).
        { induction m0; intros b' Hb'; [reflexivity|]. cbn [length seq map combine rsum fold_right fst snd].
          destruct (Z.eqb_spec (Z.of_nat i) (Z.of_nat b')); [lia|]. unfold rsum in IHm0. rewrite IHm0 by lia. ring. }
        unfold rsum in E0. rewrite E0 by lia. ring.
      - unfold rsum in IHm. rewrite IHm by lia. replace (i - b)%nat with (S (i - S b)) by lia. cbn [nth]. ring. }
    rewrite (G l 0%nat) by lia. rewrite Nat.sub_0_r. reflexivity.
  Qed.
  Lemma cat_neglogp_prob : forall i, (i < length l)%nat -> exp (- cat_neglogp l (Z.of_nat i)) = prob l i.
  Proof. intros i Hi. rewrite cat_neglogp_eq by exact Hi. rewrite Ropp_involutive. apply exp_ln, prob_pos. Qed.
  Lemma cat_total : total (map (fun i => exp (- cat_neglogp l (Z.of_nat i))) (actions (length l))) = 1.
  Proof. rewrite (total_ext _ (prob l)); [exact prob_sum|]. intros i Hi. apply cat_neglogp_prob. apply in_seq in Hi. lia. Qed.

  Lemma cat_entropy_eq : cat_entropy l = shannon (length l) (prob l).
  Proof.
    unfold cat_entropy, shifted. rewrite map_map, rsum_total.
    rewrite (total_ext _ (fun x => exp x / Z * (ln Z - x))).
    2:{ intros x _. rewrite soft_p, ln_zsum. ring. }
    rewrite (total_nth (fun x => exp x / Z * (ln Z - x))). unfold shannon.
    replace (- total (map (fun i => prob l i * ln (prob l i)) (actions (length l)))) with (-1 * total (map (fun i => prob l i * ln (prob l i)) (actions (length l)))) by ring. rewrite <- total_scal.
    apply total_ext. intros i _. rewrite ln_prob. unfold prob. fold Z. ring.
  Qed.
End Cat.

Lemma cat_outside : forall l x, ~ (0 <= x < Z.of_nat (length l))%Z -> cat_neglogp l x = 0.
Proof.
  intros l x O. unfold cat_neglogp, softmax_ce, one_hot. set (c := ln (zsum l)). clearbody c.
  assert (L : (0 <= 0)%nat) by lia. unfold shifted. set (k := rmax l). clearbody k.
  assert (G : forall m b, (b + length m <= length l)%nat ->
    rsum (map (fun yl => fst yl * (c - snd yl)) (combine (map (fun j => if (x =? Z.of_nat j)%Z then 1 else 0) (seq b (length m))) (map (fun x => x - k) m))) = 0).
  { induction m; intros b Hb; [reflexivity|]. cbn [length] in Hb. cbn [length seq map combine rsum fold_right fst snd].
    destruct (Z.eqb_spec x (Z.of_nat b)); [exfalso; apply O; lia|]. unfold rsum in IHm. rewrite IHm by lia. ring. }
  apply G. lia.
Qed.

(** ** Gibbs' inequality *)
Lemma ln_below : forall x, 0 < x -> ln x <= x - 1.
Proof.
  intros x Hx. destruct (Req_dec x 1) as [->|D]; [rewrite ln_1; lra|].
  assert (ln x <> 0). { intros E. apply D. rewrite <- (exp_ln x Hx), E. apply exp_0. }
  pose proof (exp_ineq1 _ H) as I. rewrite (exp_ln x Hx) in I. lra.
Qed.
Lemma ln_touch : forall x, 0 < x -> ln x = x - 1 -> x = 1.
Proof.
  intros x Hx E. destruct (Req_dec x 1) as [->|D]; [reflexivity|].
  assert (ln x <> 0). { intros E'. apply D. rewrite <- (exp_ln x Hx), E'. apply exp_0. }
  pose proof (exp_ineq1 _ H) as I. rewrite (exp_ln x Hx) in I. lra.
Qed.
Lemma gibbs_term : forall p q, 0 < p -> 0 < q -> p - q <= p * ln (p / q).
Proof.
  intros p q Hp Hq. assert (0 < q / p) by (apply Rdiv_lt_0_compat; assumption).
  pose proof (ln_below _ H) as B. replace (p / q) with (/ (q / p)) by (field; lra). rewrite ln_Rinv by exact H.
  assert (p * ln (q / p) <= p * (q / p - 1)) by (apply Rmult_le_compat_l; lra).
  replace (p * (q / p - 1)) with (q - p) in H0 by (field; lra). lra.
Qed.
Lemma gibbs_touch : forall p q, 0 < p -> 0 < q -> p - q = p * ln (p / q) -> p = q.
Proof.
  intros p q Hp Hq E. assert (P : 0 < q / p) by (apply Rdiv_lt_0_compat; assumption).
  replace (p / q) with (/ (q / p)) in E by (field; lra). rewrite ln_Rinv in E by exact P.
  assert (ln (q / p) = q / p - 1). { apply (Rmult_eq_reg_l p); [|lra]. replace (p * (q / p - 1)) with (q - p) by (field; lra). lra. }
  apply ln_touch in H; [|exact P]. assert (q = p * (q / p)) by (field; lra). rewrite H in H0. lra.
Qed.
Section Gibbs.
  Variables (n : nat) (p q : nat -> R).
  Hypothesis Pp : forall i, (i < n)%nat -> 0 < p i.
  Hypothesis Pq : forall i, (i < n)%nat -> 0 < q i.
  Hypothesis Sp : total (map p (actions n)) = 1.
  Hypothesis Sq : total (map q (actions n)) = 1.
  Lemma diff_zero : total (map (fun i => p i - q i) (actions n)) = 0.
  Proof.
    rewrite (total_ext _ (fun i => p i + -1 * q i)) by (intros; ring). rewrite total_plus, (total_scal q). rewrite Sp, Sq. ring.
  Qed.
  Lemma gibbs : 0 <= divergence n p q.
  Proof.
    rewrite <- diff_zero. apply total_le. intros i Hi. apply in_seq in Hi. apply gibbs_term; [apply Pp|apply Pq]; lia.
  Qed.
  Lemma gibbs_zero : divergence n p q = 0 <-> forall i, (i < n)%nat -> p i = q i.
  Proof.
    split.
    - intros E i Hi. assert (Hin : In i (actions n)) by (apply in_seq; lia).
      apply gibbs_touch; [apply Pp; exact Hi|apply Pq; exact Hi|].
      apply (total_eq_all (fun i => p i - q i) (fun i => p i * ln (p i / q i)) (actions n)); [|rewrite diff_zero; symmetry; exact E|exact Hin].
      intros j Hj. apply in_seq in Hj. apply gibbs_term; [apply Pp|apply Pq]; lia.
    - intros E. unfold divergence. rewrite (total_ext _ (fun _ => 0)).
      + rewrite total_const. ring.
      + intros i Hi. apply in_seq in Hi. rewrite <- E by lia. pose proof (Pp i ltac:(lia)). unfold Rdiv. rewrite Rinv_r by lra. rewrite ln_1. ring.
  Qed.
End Gibbs.

(** ** Divergence and entropy of categoricals *)
Lemma cat_kl_eq : forall l m, l <> [] -> length m = length l -> cat_kl l m = divergence (length l) (prob l) (prob m).
Proof.
  intros l m N L. assert (M : m <> []) by (destruct m, l; cbn in *; congruence).
  unfold cat_kl, divergence. rewrite (combine_nth2 (shifted l) (shifted m) (0 - rmax l) (0 - rmax m)) by (unfold shifted; rewrite !map_length; congruence).
  rewrite map_map, rsum_total. replace (length (shifted l)) with (length l) by (unfold shifted; rewrite map_length; reflexivity). apply total_ext. intros i Hi.
  cbn [fst snd]. unfold shifted. rewrite (map_nth (fun x => x - rmax l)), (map_nth (fun x => x - rmax m)).
  rewrite soft_p, !ln_zsum by assumption. fold (prob l i).
  unfold Rdiv. rewrite ln_mult; [|apply prob_pos; exact N|apply Rinv_0_lt_compat, prob_pos; exact M].
  rewrite ln_Rinv by (apply prob_pos; exact M). rewrite !ln_prob by assumption. ring.
Qed.
Lemma cat_kl_facts : forall l m, l <> [] -> length m = length l ->
  0 <= cat_kl l m /\ (cat_kl l m = 0 <-> forall i, (i < length l)%nat -> prob l i = prob m i).
Proof.
  intros l m N L. assert (M : m <> []) by (destruct m, l; cbn in *; congruence). rewrite cat_kl_eq by assumption. split.
  - apply gibbs; try (intros; apply prob_pos; assumption); [apply prob_sum; exact N|rewrite <- L; apply prob_sum; exact M].
  - apply gibbs_zero; try (intros; apply prob_pos; assumption); [apply prob_sum; exact N|rewrite <- L; apply prob_sum; exact M].
Qed.

Lemma shannon_uniform : forall n p, (0 < n)%nat -> (forall i, (i < n)%nat -> 0 < p i) -> total (map p (actions n)) = 1 ->
  shannon n p = ln (INR n) - divergence n p (fun _ => / INR n).
Proof.
  intros n p Hn Pp Sp. assert (Hr : 0 < INR n) by (apply lt_0_INR; exact Hn). unfold shannon, divergence.
  rewrite (total_ext (fun i => p i * ln (p i / / INR n)) (fun i => p i * ln (p i) + ln (INR n) * p i)).
  - rewrite total_plus, (total_scal p), Sp. ring.
  - intros i Hi. apply in_seq in Hi. unfold Rdiv. rewrite Rinv_inv. rewrite ln_mult; [ring|apply Pp; lia|exact Hr].
Qed.
Lemma shannon_bounds : forall n p, (0 < n)%nat -> (forall i, (i < n)%nat -> 0 < p i) -> total (map p (actions n)) = 1 ->
  0 <= shannon n p <= ln (INR n) /\ (shannon n p = ln (INR n) <-> forall i, (i < n)%nat -> p i = / INR n).
Proof.
  intros n p Hn Pp Sp. assert (Hr : 0 < INR n) by (apply lt_0_INR; exact Hn).
  assert (Sq : total (map (fun _ : nat => / INR n) (actions n)) = 1) by (rewrite total_const; unfold actions; rewrite seq_length; field; lra).
  assert (Pq : forall i : nat, (i < n)%nat -> 0 < / INR n) by (intros; apply Rinv_0_lt_compat; exact Hr).
  pose proof (gibbs n p (fun _ => / INR n) Pp Pq Sp Sq) as G. pose proof (gibbs_zero n p (fun _ => / INR n) Pp Pq Sp Sq) as GZ.
  split; [split|].
  - unfold shannon. assert (total (map (fun i => p i * ln (p i)) (actions n)) <= total (map (fun _ => 0) (actions n))).
    { apply total_le. intros i Hi. apply in_seq in Hi. assert (Hp : 0 < p i) by (apply Pp; lia).
      assert (p i <= 1).
      { rewrite <- Sp. clear - Pp Hi. assert (Hin : In i (actions n)) by (apply in_seq; lia).
        assert (F : forall j, In j (actions n) -> 0 < p j) by (intros j Hj; apply in_seq in Hj; apply Pp; lia).
        revert F Hin. generalize (actions n). induction l; intros F Hin; [destruct Hin|]. cbn.
        assert (0 <= total (map p l)). { clear - F. assert (F' : forall j, In j l -> 0 < p j) by (intros; apply F; right; assumption). clear F. induction l; cbn; [lra|].
          assert (0 <= total (map p l)) by (apply IHl; intros; apply F'; right; assumption). pose proof (F' a0 (or_introl eq_refl)). unfold total in *. lra. }
        destruct Hin as [->|Hin]; [unfold total in *; lra|].
        assert (p i <= total (map p l)) by (apply IHl; [intros; apply F; right; assumption|exact Hin]). pose proof (F a (or_introl eq_refl)). unfold total in *. lra. }
      assert (ln (p i) <= 0). { pose proof (ln_below _ Hp). lra. }
      assert (0 <= p i * - ln (p i)) by (apply Rmult_le_pos; lra). lra. }
    rewrite total_const in H. lra.
  - rewrite shannon_uniform by assumption. lra.
  - rewrite shannon_uniform by assumption. rewrite <- GZ. split; intros; lra.
Qed.
Lemma cat_entropy_bounds : forall l, l <> [] -> 0 <= cat_entropy l <= ln (INR (length l)) /\
  (cat_entropy l = ln (INR (length l)) <-> forall i j, (i < length l)%nat -> (j < length l)%nat -> nth i l 0 = nth j l 0).
Proof.
  intros l N. rewrite cat_entropy_eq by exact N. assert (Hn : (0 < length l)%nat) by (destruct l; cbn; [congruence|lia]).
  destruct (shannon_bounds (length l) (prob l) Hn) as [B E]; [intros; apply prob_pos; exact N|apply prob_sum; exact N|].
  split; [exact B|]. rewrite E. pose proof (z_pos l N) as HZ. split.
  - intros H i j Hi Hj. apply exp_inv. pose proof (H i Hi) as A. rewrite <- (H j Hj) in A. unfold prob in A.
    apply (Rmult_eq_reg_r (/ total (map exp l))); [exact A|apply Rinv_neq_0_compat; lra].
  - intros H i Hi. pose proof (prob_sum l N) as S1.
    rewrite (total_ext _ (fun _ => prob l i)) in S1.
    + rewrite total_const in S1. unfold actions in S1. rewrite seq_length in S1. assert (0 < INR (length l)) by (apply lt_0_INR; exact Hn).
      apply (Rmult_eq_reg_l (INR (length l))); [|lra]. rewrite S1. field. lra.
    + intros j Hj. apply in_seq in Hj. unfold prob. rewrite (H j i) by lia. reflexivity.
Qed.
(** Same probabilities exactly when the logits differ by a constant. *)
Lemma prob_same : forall l m, l <> [] -> length m = length l ->
  (forall i, (i < length l)%nat -> prob l i = prob m i) <-> (exists c, m = map (fun x => x + c) l).
Proof.
  intros l m N L. assert (M : m <> []) by (destruct m, l; cbn in *; congruence). split.
  - intros H. exists (ln (total (map exp m)) - ln (total (map exp l))). apply (nth_ext _ _ 0 (0 + (ln (total (map exp m)) - ln (total (map exp l))))).
    + rewrite map_length. exact L.
    + intros i Hi. rewrite (map_nth (fun x => x + (ln (total (map exp m)) - ln (total (map exp l))))).
      assert (ln (prob l i) = ln (prob m i)) by (f_equal; apply H; lia). rewrite !ln_prob in H0 by assumption. lra.
  - intros [c ->] i Hi. unfold prob. rewrite map_map. rewrite (nth_indep (map (fun x => x + c) l) 0 (0 + c)) by (rewrite map_length; exact Hi). rewrite (map_nth (fun x => x + c)).
    rewrite (total_ext (fun x => exp (x + c)) (fun x => exp c * exp x)) by (intros; rewrite exp_plus; ring). rewrite total_scal, exp_plus.
    pose proof (z_pos l N). pose proof (exp_pos c). field. lra.
Qed.

(** ** argmax *)
Section Argmax.
  Context {A : Type} (lt : A -> A -> bool) (le : A -> A -> Prop) (d : A).
  Hypothesis lt_no : forall x y, lt x y = false <-> le y x.
  Hypothesis lt_yes : forall x y, lt x y = true -> le x y.
  Hypothesis le_trans : forall x y z, le x y -> le y z -> le x z.
  Hypothesis le_refl : forall x, le x x.
  Definition first_max (l : list A) (i : nat) : Prop :=
    (i < length l)%nat /\ (forall j, (j < length l)%nat -> le (nth j l d) (nth i l d)) /\ forall j, (j < i)%nat -> lt (nth j l d) (nth i l d) = true.
  Lemma lt_le : forall x y z, lt x y = true -> le y z -> lt x z = true.
  Proof. intros x y z H1 H2. destruct (lt x z) eqn:E; [reflexivity|]. apply lt_no in E. assert (le y x) by (eapply le_trans; eassumption). apply lt_no in H. congruence. Qed.
  Lemma argmax_from_spec : forall l pre best bi, first_max pre bi -> nth bi pre d = best ->
    first_max (pre ++ l) (argmax_from lt best bi (length pre) l).
  Proof.
    induction l as [|x t IH]; intros pre best bi [B1 [B2 B3]] E; cbn [argmax_from].
    - rewrite app_nil_r. repeat split; assumption.
    - replace (pre ++ x :: t) with ((pre ++ [x]) ++ t) by (rewrite <- app_assoc; reflexivity).
      replace (S (length pre)) with (length (pre ++ [x])) by (rewrite app_length; cbn; lia).
      assert (NX : nth (length pre) (pre ++ [x]) d = x) by (rewrite app_nth2, Nat.sub_diag by lia; reflexivity).
      destruct (lt best x) eqn:C.
      + apply IH; [|exact NX]. split; [rewrite app_length; cbn; lia|]. rewrite NX. split.
        * intros j Hj. rewrite app_length in Hj. cbn in Hj. destruct (Nat.eq_dec j (length pre)) as [->|D]; [rewrite NX; apply le_refl|].
          rewrite app_nth1 by lia. eapply le_trans; [apply B2; lia|]. rewrite E. apply lt_yes. exact C.
        * intros j Hj. rewrite app_nth1 by lia. destruct (lt (nth j pre d) x) eqn:Cj; [reflexivity|].
          apply lt_no in Cj. pose proof (B2 j ltac:(lia)) as Bj. rewrite E in Bj. assert (lt best x = false) by (apply lt_no; eapply le_trans; eassumption). congruence.
      + apply IH; [|rewrite app_nth1 by exact B1; exact E]. split; [rewrite app_length; lia|]. rewrite (app_nth1 pre [x] d B1). split.
        * intros j Hj. rewrite app_length in Hj. cbn in Hj. destruct (Nat.eq_dec j (length pre)) as [->|D]; [rewrite NX, E; apply lt_no; exact C|].
          rewrite app_nth1 by lia. apply B2. lia.
        * intros j Hj. rewrite app_nth1 by lia. apply B3. exact Hj.
  Qed.
  Lemma argmax_spec : forall l i, argmax lt l = Some i -> first_max l i.
  Proof.
    intros [|x t] i H; [discriminate|]. cbn in H. injection H as <-.
    apply (argmax_from_spec t [x] x 0%nat); [|reflexivity]. split; [cbn; lia|]. split; [|intros; lia].
    intros j Hj. cbn in Hj. replace j with 0%nat by lia. apply le_refl.
  Qed.
  Lemma first_max_unique : forall l i j, first_max l i -> first_max l j -> i = j.
  Proof.
    intros l i j [A1 [A2 A3]] [B1 [B2 B3]]. destruct (lt_eq_lt_dec i j) as [[H|H]|H]; [|exact H|].
    - pose proof (B3 i H) as X. pose proof (A2 j B1) as Y. apply lt_no in Y. congruence.
    - pose proof (A3 j H) as X. pose proof (B2 i A1) as Y. apply lt_no in Y. congruence.
  Qed.
  Lemma argmax_iff : forall l i, argmax lt l = Some i <-> first_max l i.
  Proof.
    intros l i. split; [apply argmax_spec|]. intros H. destruct (argmax lt l) as [j|] eqn:E.
    - f_equal. eapply first_max_unique; [apply argmax_spec; exact E|exact H].
    - destruct l; [destruct H; cbn in *; lia|discriminate].
  Qed.
End Argmax.
Lemma rlt_no : forall x y, rlt x y = false <-> y <= x.
Proof. intros. unfold rlt. destruct (Rlt_dec x y); split; intros; try discriminate; try lra; reflexivity. Qed.
Lemma rlt_yes : forall x y, rlt x y = true <-> x < y.
Proof. intros. unfold rlt. destruct (Rlt_dec x y); split; intros; try discriminate; try lra; reflexivity. Qed.

Lemma cat_mode_iff : forall l i, cat_mode l = Some i <-> first_max rlt Rle 0 l i.
Proof. intros. apply argmax_iff; intros; try lra; [apply rlt_no|apply rlt_yes in H; lra]. Qed.
Lemma prob_le : forall l i j, l <> [] -> nth i l 0 <= nth j l 0 <-> prob l i <= prob l j.
Proof.
  intros l i j N. pose proof (z_pos l N) as HZ. unfold prob. split; intros H.
  - apply Rmult_le_compat_r; [apply Rlt_le, Rinv_0_lt_compat; exact HZ|]. destruct H as [H| ->]; [left; apply exp_increasing; exact H|lra].
  - apply Rmult_le_reg_r in H; [|apply Rinv_0_lt_compat; exact HZ]. destruct (Rle_lt_dec (nth i l 0) (nth j l 0)) as [|C]; [assumption|]. apply exp_increasing in C. lra.
Qed.
Lemma cat_mode_spec : forall l, l <> [] -> exists i, cat_mode l = Some i /\ (i < length l)%nat /\
  (forall j, (j < length l)%nat -> prob l j <= prob l i) /\ (forall j, (j < i)%nat -> prob l j < prob l i).
Proof.
  intros l N. destruct (cat_mode l) as [i|] eqn:E; [|destruct l; [congruence|discriminate]].
  exists i. split; [reflexivity|]. apply cat_mode_iff in E. destruct E as [E1 [E2 E3]]. split; [exact E1|]. split.
  - intros j Hj. apply prob_le; [exact N|]. apply E2. exact Hj.
  - intros j Hj. pose proof (E3 j Hj) as H. apply rlt_yes in H. apply Rnot_le_lt. intros C. apply prob_le in C; [lra|exact N].
Qed.
