(** Facts about the common vocabulary. *)
From Coq Require Import List Arith ZArith QArith Bool Lia Lqa.
From Verif Require Import Base.
Import ListNotations.
Open Scope nat_scope.

Lemma Qltb_lt a b : Qltb a b = true <-> (a < b)%Q.
Proof.
  unfold Qltb. rewrite negb_true_iff. split; intro H.
  - destruct (Qlt_le_dec a b) as [|Hl]; auto. apply Qle_bool_iff in Hl. congruence.
  - destruct (Qle_bool b a) eqn:E; auto. apply Qle_bool_iff in E. lra.
Qed.

Lemma Qle_bool_false a b : Qle_bool a b = false <-> (b < a)%Q.
Proof.
  rewrite <- Qltb_lt. unfold Qltb. destruct (Qle_bool a b); simpl; split; congruence.
Qed.

Lemma Qltb_false a b : Qltb a b = false <-> (b <= a)%Q.
Proof.
  unfold Qltb. rewrite negb_false_iff. apply Qle_bool_iff.
Qed.

(** Turn boolean comparisons in hypotheses into propositions. *)
Ltac qprop :=
  repeat match goal with
  | H : Qle_bool _ _ = true |- _ => apply Qle_bool_iff in H
  | H : Qle_bool _ _ = false |- _ => apply Qle_bool_false in H
  | H : Qltb _ _ = true |- _ => apply Qltb_lt in H
  | H : Qltb _ _ = false |- _ => apply Qltb_false in H
  | H : Qeq_bool _ _ = true |- _ => apply Qeq_bool_iff in H
  | H : (_ && _) = true |- _ => apply andb_true_iff in H; destruct H
  | H : (_ || _) = false |- _ => apply orb_false_iff in H; destruct H
  | H : negb _ = true |- _ => apply negb_true_iff in H
  | H : negb _ = false |- _ => apply negb_false_iff in H
  end.

Lemma Forall2_impl {A B} (P R : A -> B -> Prop) l1 l2 :
  (forall a b, P a b -> R a b) -> Forall2 P l1 l2 -> Forall2 R l1 l2.
Proof. intros H F. induction F; constructor; auto. Qed.

Lemma obind_Done {A B} (x : outcome A) (f : A -> outcome B) b :
  obind x f = Done b -> exists a, x = Done a /\ f a = Done b.
Proof. destruct x; simpl; intros; try discriminate; eauto. Qed.

Lemma length_set_nth {A} (l : list A) : forall i x, length (set_nth l i x) = length l.
Proof. induction l; destruct i; simpl; auto. Qed.

Lemma nth_error_set_nth {A} (l : list A) : forall i j x,
  nth_error (set_nth l i x) j =
  if (j =? i) then (if i <? length l then Some x else None) else nth_error l j.
Proof.
  induction l as [|a l IH]; intros [|i] [|j] x; simpl; auto.
  - destruct (j =? i); auto.
  - rewrite IH. destruct (j =? i); auto.
Qed.

Lemma ext_le_refl a : ext_le a a.
Proof. destruct a; unfold ext_le; simpl; auto. apply Qle_bool_iff. lra. Qed.

Lemma ext_le_trans a b c : ext_le a b -> ext_le b c -> ext_le a c.
Proof.
  unfold ext_le. destruct a, b, c; simpl; auto; try congruence.
  rewrite !Qle_bool_iff. intros; lra.
Qed.

Lemma ext_leb_total a b : ext_leb a b = false -> ext_leb b a = true.
Proof.
  destruct a, b; simpl; auto; try congruence. intro. qprop. apply Qle_bool_iff. lra.
Qed.

Lemma ext_ltb_le a b : ext_ltb a b = true -> ext_le a b.
Proof. unfold ext_ltb, ext_le. rewrite negb_true_iff. apply ext_leb_total. Qed.

Lemma ext_ltb_false a b : ext_ltb a b = false <-> ext_le b a.
Proof. unfold ext_ltb, ext_le. rewrite negb_false_iff. reflexivity. Qed.

Lemma ext_le_Fin a b : ext_le (Fin a) (Fin b) <-> (a <= b)%Q.
Proof. unfold ext_le. simpl. apply Qle_bool_iff. Qed.

Lemma Forall2_length {A B} (R : A -> B -> Prop) l1 l2 : Forall2 R l1 l2 -> length l1 = length l2.
Proof. intros F. induction F; simpl; auto. Qed.
