(** Proofs about dominance and the standard nondominated sort. *)
From Coq Require Import List Arith ZArith QArith Bool Lia Lqa Permutation.
From Verif Require Import Base BaseFacts Space_Model Opt_Model ND_Model ND_Spec.
Import ListNotations.
Open Scope nat_scope.

(** ** Dominance *)

Lemma dominated_loop_spec w1 : forall w2 ne, length w1 = length w2 ->
  (dominated_loop Qltb w1 w2 ne = true <->
   Forall2 Qle w1 w2 /\ (ne = true \/ exists i x y, nth_error w2 i = Some x /\ nth_error w1 i = Some y /\ (y < x)%Q)).
Proof.
  induction w1 as [|a w1 IH]; intros [|b w2] ne L; simpl in L; try discriminate.
  - simpl. split.
    + intros ->. split; auto.
    + intros [_ [H|(i & x & y & H & _)]]; auto. destruct i; discriminate.
  - cbn [dominated_loop]. destruct (Qltb b a) eqn:E1.
    + split; [discriminate|]. intros [F _]. inversion F; subst. qprop. lra.
    + destruct (Qltb a b) eqn:E2.
      * rewrite IH by lia. qprop. split.
        -- intros [F _]. split; [constructor; auto|]. right. exists 0, b, a. auto.
        -- intros [F _]. inversion F; subst. split; auto.
      * rewrite IH by lia. qprop. split.
        -- intros [F H]. split; [constructor; auto|]. destruct H as [|(i & x & y & H)]; auto.
           right. exists (S i), x, y. auto.
        -- intros [F H]. inversion F; subst. split; auto. destruct H as [|(i & x & y & K1 & K2 & K3)]; auto.
           right. destruct i as [|i]; simpl in *.
           ++ inversion K1; inversion K2; subst. lra.
           ++ exists i, x, y. auto.
Qed.

Lemma isDominated_spec w1 w2 : length w1 = length w2 -> (isDominated w1 w2 = true <-> dominates w2 w1).
Proof.
  intro L. unfold isDominated. rewrite dominated_loop_spec by auto. unfold dominates. split; intros [F H]; split; auto.
  destruct H; auto. discriminate.
Qed.

Lemma Forall2_nth_error {A B} (R : A -> B -> Prop) l1 l2 i x y : Forall2 R l1 l2 ->
  nth_error l1 i = Some x -> nth_error l2 i = Some y -> R x y.
Proof.
  intro F. revert i. induction F; intros [|i] H1 H2; simpl in *; try discriminate.
  - congruence.
  - eauto.
Qed.

Lemma dominates_irrefl a : ~ dominates a a.
Proof. intros [_ (i & x & y & H1 & H2 & H)]. rewrite H1 in H2. inversion H2; subst. lra. Qed.

Lemma dominates_trans a b c : dominates a b -> dominates b c -> dominates a c.
Proof.
  intros [F1 (i & x & y & H1 & H2 & H)] [F2 _].
  assert (F : Forall2 Qle c a).
  { clear -F1 F2. revert a F1. induction F2; intros a F1; inversion F1; subst; constructor; auto. lra. }
  split; auto.
  destruct (nth_error c i) as [z|] eqn:Ez.
  - exists i, x, z. repeat split; auto. pose proof (Forall2_nth_error _ _ _ _ _ _ F2 Ez H2) as K. simpl in K. lra.
  - apply nth_error_None in Ez. assert (length c = length a) by (eapply Forall2_length; eauto).
    assert (i < length a) by (apply nth_error_Some; congruence). lia.
Qed.

Lemma dominates_asym a b : dominates a b -> ~ dominates b a.
Proof. intros H1 H2. exact (dominates_irrefl a (dominates_trans _ _ _ H1 H2)). Qed.

Lemma dominates_length a b : dominates a b -> length a = length b.
Proof. intros [F _]. symmetry. eapply Forall2_length; eauto. Qed.

Lemma beats_trans ws i j l : beats ws i j -> beats ws j l -> beats ws i l.
Proof.
  intros (a & b & A & B & D) (b' & c & B' & C & D'). rewrite B in B'. inversion B'; subst.
  exists a, c. split; [auto|split; [auto|]]. eapply dominates_trans; eauto.
Qed.
Lemma beats_irrefl ws i : ~ beats ws i i.
Proof. intros (a & b & A & B & D). rewrite A in B. inversion B; subst. eapply dominates_irrefl; eauto. Qed.
Lemma beats_lt ws i j : beats ws i j -> i < length ws /\ j < length ws.
Proof. intros (a & b & A & B & D). split; apply nth_error_Some; congruence. Qed.

Definition domb (ws : list (list Q)) (j i : nat) : bool := isDominated (nth j ws []) (nth i ws []).

Lemma domb_spec ws m i j : objectives m ws -> i < length ws -> j < length ws ->
  (domb ws j i = true <-> beats ws i j).
Proof.
  intros O Hi Hj. unfold domb, objectives in *. rewrite Forall_forall in O.
  assert (Li : length (nth i ws []) = m) by (apply O, nth_In; auto).
  assert (Lj : length (nth j ws []) = m) by (apply O, nth_In; auto).
  rewrite isDominated_spec by congruence. split.
  - intro D. exists (nth i ws []), (nth j ws []). split; [apply nth_error_nth'; auto|split; [apply nth_error_nth'; auto|auto]].
  - intros (a & b & A & B & D). erewrite (nth_error_nth ws i) by eauto. erewrite (nth_error_nth ws j) by eauto. auto.
Qed.

Lemma NoDup_app_iff {A} (a b : list A) : NoDup (a ++ b) <-> NoDup a /\ NoDup b /\ forall x, In x a -> ~ In x b.
Proof.
  induction a as [|x a IH]; simpl.
  - split; [intro; repeat split; auto; constructor|tauto].
  - split.
    + intro H. inversion H; subst. apply IH in H3. destruct H3 as (A1 & A2 & A3). repeat split; auto.
      * constructor; auto. intro K. apply H2, in_or_app. auto.
      * intros y [<-|Hy] K; [apply H2, in_or_app; auto|]. eapply A3; eauto.
    + intros (A1 & A2 & A3). inversion A1; subst. constructor.
      * intro K. apply in_app_or in K. destruct K as [K|K]; auto. eapply A3; eauto.
      * apply IH. split; [auto|split; [auto|]]. intros y Hy. apply A3. auto.
Qed.

(** ** Counting *)
Definition countb (f : nat -> bool) (n : nat) : nat := length (filter f (seq 0 n)).

Lemma countb_S f n : countb f (S n) = countb f n + (if f n then 1 else 0).
Proof.
  unfold countb. rewrite seq_S, filter_app, app_length. simpl. destruct (f n); auto.
Qed.
Lemma countb_ext f g n : (forall y, y < n -> f y = g y) -> countb f n = countb g n.
Proof.
  induction n; intro H; auto. rewrite !countb_S, IHn, H; auto.
Qed.
Lemma countb_zero f n : countb f n = 0 <-> forall y, y < n -> f y = false.
Proof.
  induction n; [split; intros; try lia; auto|]. rewrite countb_S. split.
  - intros H y Hy. destruct (f n) eqn:E; [lia|]. destruct (Nat.eq_dec y n); [subst; auto|]. apply IHn; lia.
  - intro H. rewrite (H n) by lia. rewrite (proj2 IHn); auto.
Qed.
Lemma countb_add f g n y0 : y0 < n -> f y0 = false -> (forall y, g y = f y || (y =? y0)) ->
  countb g n = S (countb f n).
Proof.
  intros H F G. induction n; [lia|]. rewrite !countb_S, G.
  destruct (Nat.eq_dec y0 n) as [->|N].
  - rewrite Nat.eqb_refl, F, orb_true_r. simpl. rewrite (countb_ext g f); [lia|].
    intros y Hy. rewrite G. replace (y =? n) with false by (symmetry; apply Nat.eqb_neq; lia). apply orb_false_r.
  - rewrite IHn by lia. replace (n =? y0) with false by (symmetry; apply Nat.eqb_neq; lia).
    rewrite orb_false_r. lia.
Qed.
Lemma countb_split f g n : countb f n = countb (fun y => f y && g y) n + countb (fun y => f y && negb (g y)) n.
Proof. induction n; auto. rewrite !countb_S. destruct (f n), (g n); simpl; lia. Qed.

Definition memb (x : nat) (l : list nat) : bool := existsb (Nat.eqb x) l.
Lemma memb_In x l : memb x l = true <-> In x l.
Proof.
  unfold memb. rewrite existsb_exists. split.
  - intros (y & H & E). apply Nat.eqb_eq in E. subst. auto.
  - intro H. exists x. split; auto. apply Nat.eqb_refl.
Qed.
Lemma memb_false x l : memb x l = false <-> ~ In x l.
Proof. rewrite <- memb_In. destruct (memb x l); split; congruence. Qed.
Lemma memb_app x l r : memb x (l ++ r) = memb x l || memb x r.
Proof. unfold memb. apply existsb_app. Qed.

(** ** The standard sort, for any strict partial order on positions *)
Section Std.
Context (dom : nat -> nat -> bool) (n : nat).
Context (Irr : forall i, i < n -> dom i i = false).
Context (Tr : forall i j l, i < n -> j < n -> l < n -> dom i j = true -> dom j l = true -> dom i l = true).

Lemma asym i j : i < n -> j < n -> dom i j = true -> dom j i = false.
Proof.
  intros Hi Hj H. destruct (dom j i) eqn:E; auto. rewrite <- (Irr i Hi). symmetry. eauto.
Qed.

(** The pairs in [P] have been compared. *)
Definition ninv (P : nat -> nat -> bool) (st : nd_state) : Prop :=
  (forall x, x < n -> nd_cnt st x = Z.of_nat (countb (fun y => dom x y && P x y) n)) /\
  (forall x y, In y (nd_list st x) <-> x < n /\ y < n /\ dom y x = true /\ P x y = true) /\
  (forall x, NoDup (nd_list st x)).

Lemma ninv_ext P P' st : (forall x y, x < n -> y < n -> x <> y -> P x y = P' x y) -> ninv P st -> ninv P' st.
Proof.
  intros E (A & B & C). repeat split; auto.
  - intros x Hx. rewrite A by auto. f_equal. apply countb_ext. intros y Hy.
    destruct (Nat.eq_dec x y) as [->|N]; [rewrite Irr by auto; auto|]. rewrite E by auto. auto.
  - apply B in H; tauto.
  - apply B in H; tauto.
  - apply B in H; tauto.
  - apply B in H. destruct H as (Hx & Hy & D & H). rewrite <- E; auto. intros ->. rewrite Irr in D by auto. discriminate.
  - intros (Hx & Hy & D & H). apply B. repeat split; auto. rewrite E; auto. intros ->. rewrite Irr in D by auto. discriminate.
Qed.

Lemma NoDup_snoc {A} (l : list A) x : NoDup l -> ~ In x l -> NoDup (l ++ [x]).
Proof.
  intros H N. apply NoDup_rev in H. rewrite <- (rev_involutive (l ++ [x])). apply NoDup_rev.
  rewrite rev_app_distr. simpl. constructor; auto. rewrite <- in_rev. auto.
Qed.

(** One ordered pair: member [a] dominates member [b]. *)
Lemma ninv_add P a b (Pf : P b a = false) (Pf' : P a b = false) st : a < n -> b < n -> a <> b -> dom b a = true -> ninv P st ->
  forall P', (forall x y, P' x y = P x y || ((x =? a) && (y =? b)) || ((x =? b) && (y =? a))) ->
  ninv P' (NdSt (upd (nd_cnt st) b (nd_cnt st b + 1)%Z) (upd (nd_list st) a (nd_list st a ++ [b])) (nd_cur st)).
Proof.
  intros Ha Hb N D (A & B & C) P' EP. repeat split; simpl.
  - intros x Hx. unfold upd. destruct (Nat.eqb_spec x b) as [->|Nx].
    + rewrite A by auto. rewrite (countb_add (fun y => dom b y && P b y) (fun y => dom b y && P' b y) n a Ha); [lia| |].
      * simpl. rewrite Pf. apply andb_false_r.
      * intro y. rewrite EP, Nat.eqb_refl. replace (b =? a) with false by (symmetry; apply Nat.eqb_neq; lia).
        simpl. rewrite orb_false_r. destruct (Nat.eqb_spec y a) as [->|]; [|rewrite !orb_false_r; auto].
        rewrite !orb_true_r, D. auto.
    + rewrite A by auto. f_equal. apply countb_ext. intros y Hy. rewrite EP.
      replace (x =? b) with false by (symmetry; apply Nat.eqb_neq; lia). simpl. rewrite orb_false_r.
      destruct (Nat.eqb_spec x a) as [->|]; [|rewrite orb_false_r; auto].
      destruct (Nat.eqb_spec y b) as [->|]; simpl; [|rewrite orb_false_r; auto].
      rewrite orb_true_r. rewrite (asym b a) by auto. auto.
  - cbn [nd_list] in H; unfold upd in H. destruct (Nat.eqb_spec x a); [subst; auto|]. apply B in H; tauto.
  - cbn [nd_list] in H; unfold upd in H. destruct (Nat.eqb_spec x a); [|apply B in H; tauto]. subst. apply in_app_or in H.
    destruct H as [H|[<-|[]]]; auto. apply B in H; tauto.
  - cbn [nd_list] in H; unfold upd in H. destruct (Nat.eqb_spec x a); [|apply B in H; tauto]. subst. apply in_app_or in H.
    destruct H as [H|[<-|[]]]; auto. apply B in H; tauto.
  - rewrite EP. cbn [nd_list] in H; unfold upd in H. destruct (Nat.eqb_spec x a).
    + subst. apply in_app_or in H. destruct H as [H|[<-|[]]].
      * apply B in H. destruct H as (_ & _ & _ & ->). auto.
      * rewrite Nat.eqb_refl. simpl. rewrite orb_true_r. auto.
    + apply B in H. destruct H as (_ & _ & _ & ->). auto.
  - intros (Hx & Hy & Dy & Py). rewrite EP in Py. unfold upd.
    destruct (Nat.eqb_spec x a) as [->|Nx].
    + apply in_or_app. simpl in Py. destruct (P a y) eqn:E.
      * left. apply B. auto.
      * simpl in Py. replace (a =? b) with false in Py by (symmetry; apply Nat.eqb_neq; lia). simpl in Py. rewrite orb_false_r in Py.
        apply Nat.eqb_eq in Py. right. left. auto.
    + apply B. repeat split; auto. destruct (P x y) eqn:E; auto. simpl in Py.
      apply andb_true_iff in Py. destruct Py as [E1 E2]. apply Nat.eqb_eq in E1, E2. subst.
      rewrite asym in Dy; auto; discriminate.
  - intro x. unfold upd. destruct (Nat.eqb_spec x a); auto. subst. apply NoDup_snoc; auto.
    rewrite B. intros (_ & _ & _ & H). congruence.
Qed.

Lemma nd_pair_inv P i j st P' : i < n -> j < n -> i <> j -> P i j = false -> P j i = false -> ninv P st ->
  (forall x y, P' x y = P x y || ((x =? i) && (y =? j)) || ((x =? j) && (y =? i))) ->
  ninv P' (nd_pair dom i st j) /\ nd_cur (nd_pair dom i st j) = nd_cur st.
Proof.
  intros Hi Hj N P1 P2 I EP. unfold nd_pair. destruct (dom j i) eqn:D1; [|destruct (dom i j) eqn:D2].
  - split; auto. eapply ninv_add with (P := P); eauto.
  - split; auto. eapply ninv_add with (P := P); eauto. intros x y. rewrite EP.
    destruct (P x y), ((x =? i) && (y =? j)), ((x =? j) && (y =? i)); auto.
  - split; auto. destruct I as (A & B & C). repeat split; auto.
    + intros x Hx. rewrite A by auto. f_equal. apply countb_ext. intros y Hy. rewrite EP.
      destruct (Nat.eqb_spec x i) as [Ei|]; destruct (Nat.eqb_spec x j) as [Ej|]; simpl; rewrite ?orb_false_r; auto.
      * lia.
      * subst x. destruct (Nat.eqb_spec y j) as [->|]; rewrite ?orb_false_r; auto. rewrite D2. auto.
      * subst x. destruct (Nat.eqb_spec y i) as [->|]; rewrite ?orb_false_r; auto. rewrite D1. auto.
    + apply B in H; tauto.
    + apply B in H; tauto.
    + apply B in H; tauto.
    + rewrite EP. apply B in H. destruct H as (_ & _ & _ & ->). auto.
    + intros (Hx & Hy & Dy & Py). apply B. repeat split; auto. rewrite EP in Py. destruct (P x y); auto.
      simpl in Py. apply orb_true_iff in Py. destruct Py as [E|E]; apply andb_true_iff in E; destruct E as [E1 E2];
      apply Nat.eqb_eq in E1, E2; subst; congruence.
Qed.

(** Pairs compared when rows below [i] are complete, and members between [i] and [j] have been
    compared with [i]. *)
Definition cmp (i j x y : nat) : bool :=
  (x <? i) || (y <? i) || ((x =? i) && (y <? j)) || ((y =? i) && (x <? j)).

Lemma nd_inner i : forall m j st, i < n -> i < j -> j + m = n -> ninv (cmp i j) st ->
  ninv (cmp i n) (fold_left (nd_pair dom i) (seq j m) st) /\ nd_cur (fold_left (nd_pair dom i) (seq j m) st) = nd_cur st.
Proof.
  induction m as [|m IH]; intros j st Hi Hij L I; simpl.
  - replace n with j by lia. auto.
  - destruct (nd_pair_inv (cmp i j) i j st (cmp i (S j))) as [I' E]; auto; try lia.
    + unfold cmp. rewrite !Nat.ltb_irrefl, Nat.eqb_refl. repeat rewrite orb_false_iff. repeat split; simpl;
      try apply Nat.ltb_ge; try lia. apply andb_false_iff. left. apply Nat.eqb_neq. lia.
    + unfold cmp. rewrite !Nat.ltb_irrefl, Nat.eqb_refl. repeat rewrite orb_false_iff. repeat split; simpl;
      try apply Nat.ltb_ge; try lia. apply andb_false_iff. left. apply Nat.eqb_neq. lia.
    + intros x y. unfold cmp.
      destruct (Nat.ltb_spec x i), (Nat.ltb_spec y i), (Nat.eqb_spec x i), (Nat.eqb_spec y i), (Nat.ltb_spec y j),
        (Nat.ltb_spec y (S j)), (Nat.ltb_spec x j), (Nat.ltb_spec x (S j)), (Nat.eqb_spec y j), (Nat.eqb_spec x j);
        simpl; try reflexivity; try lia.
    + destruct (IH (S j) (nd_pair dom i st j)) as [I2 E2]; auto; try lia. rewrite E2, E. auto.
Qed.

Definition free (x : nat) : bool := countb (fun y => dom x y) n =? 0.

Lemma nd_first_inv : forall m i st, i + m = n -> ninv (fun x y => (x <? i) || (y <? i)) st ->
  nd_cur st = filter free (seq 0 i) ->
  ninv (fun x y => (x <? n) || (y <? n)) (nd_first dom (seq i m) st) /\
  nd_cur (nd_first dom (seq i m) st) = filter free (seq 0 n).
Proof.
  induction m as [|m IH]; intros i st L I E.
  - simpl. assert (i = n) by lia. subst i. auto.
  - cbn [seq nd_first]. destruct (nd_inner i m (S i) st) as [I2 E2]; try lia.
    { eapply ninv_ext; [|exact I]. intros x y Hx Hy Nxy. simpl. unfold cmp.
      destruct (Nat.ltb_spec x i), (Nat.ltb_spec y i), (Nat.eqb_spec x i), (Nat.eqb_spec y i), (Nat.ltb_spec y (S i)),
        (Nat.ltb_spec x (S i)); simpl; try reflexivity; try lia. }
    assert (I3 : ninv (fun x y => (x <? S i) || (y <? S i)) (fold_left (nd_pair dom i) (seq (S i) m) st)).
    { eapply ninv_ext; [|exact I2]. intros x y Hx Hy Nxy. simpl. unfold cmp.
      destruct (Nat.ltb_spec x i), (Nat.ltb_spec y i), (Nat.eqb_spec x i), (Nat.eqb_spec y i), (Nat.ltb_spec y n),
        (Nat.ltb_spec x n), (Nat.ltb_spec x (S i)), (Nat.ltb_spec y (S i)); simpl; try reflexivity; try lia. }
    assert (Ec : nd_cnt (fold_left (nd_pair dom i) (seq (S i) m) st) i = Z.of_nat (countb (fun y => dom i y) n)).
    { destruct I3 as (A & _ & _). rewrite A by lia. f_equal. apply countb_ext. intros y Hy.
      rewrite (proj2 (Nat.ltb_lt i (S i))) by lia. apply andb_true_r. }
    apply IH; try lia.
    + unfold nd_row. destruct (nd_cnt _ i =? 0)%Z; auto.
    + unfold nd_row. rewrite Ec, seq_S, filter_app. simpl. unfold free at 2.
      replace (Z.of_nat (countb (fun y => dom i y) n) =? 0)%Z with (countb (fun y => dom i y) n =? 0).
      * destruct (countb (fun y => dom i y) n =? 0); simpl; rewrite E2, E; auto. rewrite app_nil_r. auto.
      * destruct (Nat.eqb_spec (countb (fun y => dom i y) n) 0), (Z.eqb_spec (Z.of_nat (countb (fun y => dom i y) n)) 0); auto; lia.
Qed.

Definition st0 := nd_first dom (seq 0 n) (NdSt (fun _ => 0%Z) (fun _ => []) []).

Lemma st0_spec :
  (forall x, x < n -> nd_cnt st0 x = Z.of_nat (countb (fun y => dom x y) n)) /\
  (forall x y, In y (nd_list st0 x) <-> x < n /\ y < n /\ dom y x = true) /\
  (forall x, NoDup (nd_list st0 x)) /\ nd_cur st0 = filter free (seq 0 n).
Proof.
  destruct (nd_first_inv n 0 (NdSt (fun _ => 0%Z) (fun _ => []) [])) as [(A & B & C) E]; auto.
  - split; [|split]; simpl.
    + intros x Hx. replace (countb _ n) with 0; auto. symmetry. apply countb_zero. intros. apply andb_false_r.
    + intros x y. split; [tauto|]. intros (_ & _ & _ & K). discriminate.
    + intros. constructor.
  - fold st0 in A, B, C, E. repeat split; auto.
    + intros x Hx. rewrite A by auto. f_equal. apply countb_ext. intros y Hy.
      rewrite (proj2 (Nat.ltb_lt x n)) by auto. apply andb_true_r.
    + apply B in H; tauto.
    + apply B in H; tauto.
    + apply B in H; tauto.
    + intros (Hx & Hy & D). apply B. repeat split; auto. rewrite (proj2 (Nat.ltb_lt x n)); auto.
Qed.

(** Peeling one front. *)
Lemma nd_dec_fold l : forall cnt nxt,
  let r := fold_left nd_dec l (cnt, nxt) in
  (forall d, fst r d = (cnt d - Z.of_nat (count_occ Nat.eq_dec l d))%Z) /\
  exists new, snd r = nxt ++ new /\ NoDup new /\
    forall d, In d new <-> (1 <= cnt d <= Z.of_nat (count_occ Nat.eq_dec l d))%Z.
Proof.
  induction l as [|a l IH]; intros cnt nxt r; subst r.
  - simpl. split; [intro; lia|]. exists []. rewrite app_nil_r. split; [auto|split; [constructor|]]. intro d. simpl. lia.
  - cbn [fold_left nd_dec].
    destruct (IH (upd cnt a (cnt a - 1)%Z) (if (cnt a - 1 =? 0)%Z then nxt ++ [a] else nxt)) as (A & new & E & ND & I).
    split.
    + intro d. rewrite A. unfold upd. cbn [count_occ]. destruct (Nat.eq_dec a d) as [->|N].
      * rewrite Nat.eqb_refl. lia.
      * replace (d =? a) with false by (symmetry; apply Nat.eqb_neq; lia). lia.
    + destruct (Z.eqb_spec (cnt a - 1) 0) as [H|H].
      * exists (a :: new). rewrite E, <- app_assoc. repeat split; auto.
        -- constructor; auto. rewrite I. unfold upd. rewrite Nat.eqb_refl. lia.
        -- destruct H0 as [<-|Hd]; [cbn [count_occ]; destruct (Nat.eq_dec a a); lia|]. apply I in Hd. unfold upd in Hd. destruct (Nat.eqb_spec d a); lia.
        -- destruct H0 as [<-|Hd]; [cbn [count_occ]; destruct (Nat.eq_dec a a); lia|]. apply I in Hd. unfold upd in Hd. cbn [count_occ].
           destruct (Nat.eqb_spec d a), (Nat.eq_dec a d); lia.
        -- intro Hd. destruct (Nat.eq_dec a d); [left; auto|right]. apply I. unfold upd. cbn [count_occ] in Hd.
           destruct (Nat.eqb_spec d a), (Nat.eq_dec a d); lia.
      * exists new. split; auto. split; auto. intro d. rewrite I. unfold upd. cbn [count_occ].
        destruct (Nat.eqb_spec d a), (Nat.eq_dec a d); subst; try lia.
Qed.

Lemma nd_peel_flat dl cur cnt : nd_peel dl cur cnt = fold_left nd_dec (flat_map dl cur) (cnt, []).
Proof.
  unfold nd_peel. generalize (cnt, @nil nat). induction cur as [|p cur IH]; intro s; simpl; auto.
  rewrite IH, fold_left_app. auto.
Qed.

Lemma count_occ_NoDup l x : NoDup l -> count_occ Nat.eq_dec l x = if memb x l then 1 else 0.
Proof.
  intro ND. destruct (memb x l) eqn:E.
  - apply memb_In in E. rewrite NoDup_count_occ' in ND. auto.
  - apply memb_false in E. apply count_occ_not_In; auto.
Qed.

Lemma occ_flat (dl : nat -> list nat) d cur : (forall x, NoDup (dl x)) -> NoDup cur -> (forall x, In x cur -> x < n) ->
  count_occ Nat.eq_dec (flat_map dl cur) d = countb (fun p => memb d (dl p) && memb p cur) n.
Proof.
  intros Nd. induction cur as [|p cur IH]; intros NC Lt; simpl.
  - symmetry. apply countb_zero. intros. apply andb_false_r.
  - rewrite count_occ_app, count_occ_NoDup by auto. inversion NC; subst. rewrite IH; auto; [|intros; apply Lt; simpl; auto].
    destruct (memb d (dl p)) eqn:E.
    + symmetry. apply countb_add with (y0 := p).
      * apply Lt. simpl. auto.
      * simpl. rewrite (proj2 (memb_false p cur)) by auto. apply andb_false_r.
      * intro y. unfold memb at 2. simpl. fold (memb y cur). destruct (Nat.eqb_spec y p); subst; rewrite ?E; simpl;
        rewrite ?orb_true_r, ?orb_false_r; auto.
    + apply countb_ext. intros y Hy. unfold memb at 4. simpl. fold (memb y cur).
      destruct (Nat.eqb_spec y p); subst; rewrite ?E; auto.
Qed.

(** All dominators of [d] are in [l]. *)
Definition under (l : list nat) (d : nat) : Prop := forall y, y < n -> dom d y = true -> In y l.

(** Successive nondominated layers, starting when [done] has been removed. *)
Fixpoint layered (done : list nat) (fronts : list (list nat)) : Prop :=
  match fronts with
  | [] => True
  | F :: r => NoDup (done ++ F) /\ (forall d, In d F <-> d < n /\ ~ In d done /\ under done d) /\ layered (done ++ F) r
  end.

Lemma layered_app fs : forall done gs, layered done (fs ++ gs) <-> layered done fs /\ layered (done ++ concat fs) gs.
Proof.
  induction fs as [|F fs IH]; intros done gs; simpl.
  - rewrite app_nil_r. tauto.
  - rewrite IH, <- app_assoc. tauto.
Qed.

Lemma peel_spec done cur cnt :
  NoDup (done ++ cur) -> (forall x, In x (done ++ cur) -> x < n) ->
  (forall d, d < n -> cnt d = Z.of_nat (countb (fun y => dom d y && negb (memb y done)) n)) ->
  (forall d, d < n -> (In d (done ++ cur) <-> under done d)) ->
  (forall d, n <= d -> cnt d = 0%Z) ->
  let '(cnt', nxt) := nd_peel (nd_list st0) cur cnt in
  NoDup ((done ++ cur) ++ nxt) /\ (forall x, In x nxt -> x < n) /\
  (forall d, d < n -> cnt' d = Z.of_nat (countb (fun y => dom d y && negb (memb y (done ++ cur))) n)) /\
  (forall d, In d nxt <-> d < n /\ ~ In d (done ++ cur) /\ under (done ++ cur) d) /\
  (forall d, d < n -> (In d ((done ++ cur) ++ nxt) <-> under (done ++ cur) d)) /\
  (forall d, n <= d -> cnt' d = 0%Z).
Proof.
  intros ND Lt Cn Cl Co. rewrite nd_peel_flat.
  destruct st0_spec as (_ & L & NL & _).
  assert (NC : NoDup cur) by (apply NoDup_app_iff in ND; tauto).
  destruct (nd_dec_fold (flat_map (nd_list st0) cur) cnt []) as (A & new & E & NN & I).
  destruct (fold_left nd_dec (flat_map (nd_list st0) cur) (cnt, [])) as [cnt' nxt]. simpl in A, E. subst nxt.
  assert (O : forall d, d < n -> count_occ Nat.eq_dec (flat_map (nd_list st0) cur) d = countb (fun p => dom d p && memb p cur) n).
  { intros d Hd. rewrite occ_flat; auto.
    - apply countb_ext. intros p Hp. f_equal. destruct (dom d p) eqn:E.
      + apply memb_In, L. auto.
      + apply memb_false. rewrite L. intros (_ & _ & H). congruence.
    - intros x Hx. apply Lt, in_or_app. auto. }
  assert (SP : forall d, countb (fun y => dom d y && negb (memb y done)) n =
    countb (fun p => dom d p && memb p cur) n + countb (fun y => dom d y && negb (memb y (done ++ cur))) n).
  { intro d. rewrite (countb_split _ (fun y => memb y cur)). f_equal; apply countb_ext; intros y Hy.
    - destruct (dom d y), (memb y cur) eqn:M; simpl; rewrite ?andb_false_r; auto. rewrite andb_true_r. apply negb_true_iff.
      apply memb_false. intro K. apply memb_In in M. apply in_split in K. destruct K as (l1 & l2 & ->).
      rewrite <- app_assoc in ND. simpl in ND. apply NoDup_remove_2 in ND. apply ND. apply in_or_app. right. apply in_or_app. auto.
    - rewrite memb_app. destruct (dom d y), (memb y done), (memb y cur); auto. }
  assert (Und : forall l d, under l d <-> countb (fun y => dom d y && negb (memb y l)) n = 0).
  { intros l d. rewrite countb_zero. split.
    - intros U y Hy. destruct (dom d y) eqn:D; auto. simpl. apply negb_false_iff, memb_In. auto.
    - intros U y Hy D. specialize (U y Hy). rewrite D in U. simpl in U. apply negb_false_iff, memb_In in U. auto. }
  assert (New : forall d, In d new <-> d < n /\ ~ In d (done ++ cur) /\ under (done ++ cur) d).
  { intro d. rewrite I. destruct (lt_dec d n) as [Hd|Hd].
    - rewrite O, Cn by auto. rewrite Cl by auto. rewrite !Und. specialize (SP d). lia.
    - rewrite Co by lia. lia. }
  repeat split; auto.
  - apply NoDup_app_iff. repeat split; auto. intros x Hx K. apply New in K. tauto.
  - intros x Hx. apply New in Hx. tauto.
  - intros d Hd. rewrite A, O, Cn by auto. specialize (SP d). lia.
  - apply New in H; tauto.
  - apply New in H; tauto.
  - apply New in H; tauto.
  - apply New.
  - intro K. apply in_app_or in K. destruct K as [K|K]; [|apply New in K; tauto].
    assert (U : under done d) by (apply Cl; auto). intros y Hy D. apply in_or_app. left. auto.
  - intro U. apply in_or_app. destruct (in_dec Nat.eq_dec d (done ++ cur)); auto. right. apply New. auto.
  - intros d Hd. rewrite A. rewrite Co by auto. replace (count_occ _ _ d) with 0; [lia|]. symmetry.
    apply count_occ_not_In. intro K. apply in_flat_map in K. destruct K as (p & _ & K). apply L in K. lia.
Qed.

Lemma countb_lt f g m y0 : (forall y, y < m -> f y = true -> g y = true) -> y0 < m -> g y0 = true -> f y0 = false ->
  countb f m < countb g m.
Proof.
  clear. induction m; intros H Hy G F; [lia|]. rewrite !countb_S.
  assert (Le : countb f m <= countb g m).
  { clear IHm. assert (H' : forall y, y < m -> f y = true -> g y = true) by auto. clear -H'. induction m; auto. rewrite !countb_S.
    assert (countb f m <= countb g m) by (apply IHm; auto). assert (K : f m = true -> g m = true) by auto. destruct (f m); [rewrite K by auto|destruct (g m)]; lia. }
  destruct (Nat.eq_dec y0 m) as [->|N].
  - rewrite G, F. lia.
  - assert (countb f m < countb g m) by (apply IHm; auto; lia). assert (K : f m = true -> g m = true) by auto. destruct (f m); [rewrite K by auto|destruct (g m)]; lia.
Qed.

Lemma minimal_left l d : d < n -> ~ In d l -> exists d', d' < n /\ ~ In d' l /\ under l d'.
Proof.
  remember (countb (dom d) n) as c eqn:Ec. revert d Ec. induction c as [c IH] using lt_wf_ind. intros d Ec Hd Nd.
  destruct (find (fun y => dom d y && negb (memb y l)) (seq 0 n)) as [y|] eqn:F.
  - apply find_some in F. destruct F as [Hy F]. apply in_seq in Hy. apply andb_true_iff in F. destruct F as [D M].
    apply negb_true_iff, memb_false in M. eapply IH with (d := y); eauto; try lia.
    subst c. apply countb_lt with (y0 := y); try lia; auto.
    + intros z Hz Dz. eapply Tr with (j := y); eauto. lia.
    + apply Irr. lia.
  - exists d. split; [auto|split; [auto|]]. intros y Hy D. destruct (in_dec Nat.eq_dec y l) as [|N]; auto. exfalso.
    pose proof (find_none _ _ F y) as K. simpl in K. rewrite D in K. simpl in K. apply memb_false in N. rewrite N in K.
    discriminate K. apply in_seq. lia.
Qed.

Lemma missing l : length l < n -> exists d, d < n /\ ~ In d l.
Proof.
  intro H. destruct (find (fun d => negb (memb d l)) (seq 0 n)) as [d|] eqn:F.
  - apply find_some in F. destruct F as [Hd F]. apply in_seq in Hd. apply negb_true_iff, memb_false in F. exists d. split; [lia|auto].
  - exfalso. assert (I : incl (seq 0 n) l).
    { intros x Hx. pose proof (find_none _ _ F x Hx) as K. simpl in K. apply negb_false_iff, memb_In in K. auto. }
    apply NoDup_incl_length in I; [|apply seq_NoDup]. rewrite seq_length in I. lia.
Qed.

Lemma while_spec N : N <= n -> forall fuel done cur cnt fronts,
  NoDup (done ++ cur) -> (forall x, In x (done ++ cur) -> x < n) ->
  (forall d, d < n -> cnt d = Z.of_nat (countb (fun y => dom d y && negb (memb y done)) n)) ->
  (forall d, d < n -> (In d (done ++ cur) <-> under done d)) ->
  (forall d, n <= d -> cnt d = 0%Z) ->
  layered [] fronts -> concat (removelast fronts) = done -> concat fronts = done ++ cur -> fronts <> [] ->
  length done < N -> n - length (done ++ cur) <= fuel ->
  exists fs, nd_while fuel (nd_list st0) N (length (done ++ cur)) cnt cur fronts = Some fs /\
    layered [] fs /\ N <= length (concat fs) /\ length (concat (removelast fs)) < N.
Proof.
  intro HN. induction fuel as [|fuel IH]; intros done cur cnt fronts ND Lt Cn Cl Co La Er Ec Ne Hd Hf.
  - cbn [nd_while]. replace (length (done ++ cur) <? N) with false by (symmetry; apply Nat.ltb_ge; lia).
    exists fronts. rewrite Er, Ec. repeat split; auto. lia.
  - cbn [nd_while]. destruct (Nat.ltb_spec (length (done ++ cur)) N) as [Hlt|Hge].
    + pose proof (peel_spec done cur cnt ND Lt Cn Cl Co) as P.
      destruct (nd_peel (nd_list st0) cur cnt) as [cnt' nxt] eqn:E. destruct P as (P1 & P2 & P3 & P4 & P5 & P6).
      rewrite <- app_length.
      assert (Hn : nxt <> []).
      { destruct (missing (done ++ cur)) as (d & H1 & H2); [lia|]. destruct (minimal_left _ d H1 H2) as (d' & K).
        apply P4 in K. intros ->. destruct K. }
      apply IH; auto.
      * intros x Hx. apply in_app_or in Hx. destruct Hx as [Hx|Hx]; auto.
      * rewrite layered_app. split; auto. simpl. rewrite Ec. auto.
      * rewrite removelast_last. auto.
      * rewrite concat_app. simpl. rewrite Ec, app_nil_r. auto.
      * intro K. apply app_eq_nil in K. destruct K. discriminate.
      * rewrite app_length. destruct nxt; [congruence|]. simpl. lia.
    + exists fronts. rewrite Er, Ec. auto.
Qed.

Lemma free_under d : d < n -> (free d = true <-> under [] d).
Proof.
  intro Hd. unfold free. rewrite Nat.eqb_eq, countb_zero. split.
  - intros H y Hy D. rewrite H in D by auto. discriminate.
  - intros H y Hy. destruct (dom d y) eqn:D; auto. destruct (H y Hy D).
Qed.

Lemma sort_layered k : 0 < n -> 0 < k -> exists fs, nd_sort dom n n k = Some fs /\
    layered [] fs /\ Nat.min n k <= length (concat fs) /\ length (concat (removelast fs)) < Nat.min n k.
Proof.
  intros Hn Hk. unfold nd_sort. replace (k =? 0) with false by (symmetry; apply Nat.eqb_neq; lia).
  fold st0. destruct st0_spec as (A & B & C & E).
  assert (IC : forall d, In d (nd_cur st0) <-> d < n /\ under [] d).
  { intro d. rewrite E, filter_In, in_seq. split; intros [H1 H2].
    - split; [lia|]. apply free_under; auto. lia.
    - split; [lia|]. apply free_under; auto. }
  assert (NC : NoDup (nd_cur st0)) by (rewrite E; apply NoDup_filter, seq_NoDup).
  assert (O : forall d, n <= d -> nd_cnt st0 d = 0%Z).
  { assert (G : forall rest i st, (forall d, n <= d -> nd_cnt st d = 0%Z) -> (forall j, In j rest -> j < n) -> i < n ->
             forall d, n <= d -> nd_cnt (fold_left (nd_pair dom i) rest st) d = 0%Z).
    { clear. induction rest as [|j rest IH]; intros i st H L Hi d Hd; simpl; auto. apply IH; auto.
      - intros x Hx. assert (j < n) by (apply L; simpl; auto). unfold nd_pair. destruct (dom j i); [|destruct (dom i j)]; simpl; auto;
        unfold upd; destruct (Nat.eqb_spec x j); destruct (Nat.eqb_spec x i); try lia; auto.
      - intros x Hx. apply L. simpl. auto. }
    assert (G2 : forall l st, (forall d, n <= d -> nd_cnt st d = 0%Z) -> (forall j, In j l -> j < n) ->
             forall d, n <= d -> nd_cnt (nd_first dom l st) d = 0%Z).
    { clear -G. induction l as [|i l IH]; intros st H L d Hd; simpl; auto. apply IH; auto.
      - intros x Hx. unfold nd_row. assert (K : nd_cnt (fold_left (nd_pair dom i) l st) x = 0%Z).
        { apply G; auto; intros; apply L; simpl; auto. }
        destruct (nd_cnt _ i =? 0)%Z; auto.
      - intros; apply L; simpl; auto. }
    apply G2; auto. intros j Hj. apply in_seq in Hj. lia. }
  apply (while_spec (Nat.min n k) ltac:(lia) n [] (nd_cur st0)); auto.
  - intros x Hx. apply IC in Hx. tauto.
  - intros d Hd. rewrite A by auto. f_equal. apply countb_ext. intros y Hy. simpl. rewrite andb_true_r. auto.
  - intros d Hd. simpl. rewrite IC. tauto.
  - simpl. split; [auto|split; [|auto]]. intro d. rewrite IC. tauto.
  - simpl. rewrite app_nil_r. auto.
  - discriminate.
  - simpl. lia.
  - lia.
Qed.
End Std.

(** ** Layers and ranks *)
Section Ranks.
Context (ws : list (list Q)) (m : nat) (O : objectives m ws).

Local Notation n := (length ws).
Local Notation dom := (domb ws).

Lemma domb_irr i : i < n -> dom i i = false.
Proof.
  intro H. destruct (dom i i) eqn:E; auto. apply (domb_spec ws m) in E; auto. exfalso. eapply beats_irrefl; eauto.
Qed.
Lemma domb_trans i j l : i < n -> j < n -> l < n -> dom i j = true -> dom j l = true -> dom i l = true.
Proof.
  intros Hi Hj Hl D1 D2. apply (domb_spec ws m) in D1; auto. apply (domb_spec ws m) in D2; auto.
  apply (domb_spec ws m); auto. eapply beats_trans; eauto.
Qed.

Lemma under_beats l d : d < n -> (under dom n l d <-> forall y, beats ws y d -> In y l).
Proof.
  intro Hd. split.
  - intros U y B. destruct (beats_lt _ _ _ B). apply U; auto. apply (domb_spec ws m); auto.
  - intros U y Hy D. apply U. apply (domb_spec ws m); auto.
Qed.

Lemma climbs_lt i r : climbs ws i r -> i < n.
Proof. destruct 1; auto. apply beats_lt in H. tauto. Qed.

Lemma layered_rank_at fs : forall gs, layered dom n [] (fs ++ gs) -> forall g0 gs', gs = g0 :: gs' -> forall d, In d g0 ->
  climbs ws d (length fs) /\ forall r', climbs ws d r' -> r' <= length fs.
Proof.
  induction fs as [fs IH] using (induction_ltof1 _ (@length (list nat))). unfold ltof in IH.
  intros gs L g0 gs' -> d Hd.
  apply layered_app in L. destruct L as [L1 L2]. simpl in L2. destruct L2 as (ND & I & _).
  apply I in Hd. destruct Hd as (Hd & Nd & U). rewrite under_beats in U by auto. split.
  - destruct fs as [|f fs0 _] using rev_ind; [constructor; auto|].
    rewrite app_length. simpl. replace (length fs0 + 1) with (S (length fs0)) by lia.
    apply layered_app in L1. destruct L1 as [L0 L1]. simpl in L1. destruct L1 as (ND1 & I1 & _).
    rewrite concat_app in U, Nd. simpl in U, Nd. rewrite app_nil_r in U, Nd.
    destruct (find (fun y => dom d y && negb (memb y (concat fs0))) (seq 0 n)) as [y|] eqn:F.
    + apply find_some in F. destruct F as [Hy F]. apply in_seq in Hy. apply andb_true_iff in F. destruct F as [D M].
      apply negb_true_iff, memb_false in M. apply (domb_spec ws m) in D; auto; try lia.
      econstructor; eauto. specialize (U y D). apply in_app_or in U. destruct U as [U|U]; [contradiction|].
      eapply (IH fs0) with (gs := [f]); eauto.
      * rewrite app_length. simpl. lia.
      * apply layered_app. split; auto. simpl. auto.
    + exfalso. apply Nd. apply in_or_app. right. apply I1. split; [auto|split].
      * intro K. apply Nd, in_or_app. auto.
      * intros y Hy D. destruct (in_dec Nat.eq_dec y (concat fs0)) as [|N]; auto. exfalso.
        pose proof (find_none _ _ F y) as K. simpl in K. rewrite D in K. apply memb_false in N. rewrite N in K.
        discriminate K. apply in_seq. lia.
  - intros r' C. destruct r' as [|r']; [lia|]. inversion C as [|? j ? B C']; subst. specialize (U j B).
    apply in_concat in U. destruct U as (F & HF & Hj). apply in_split in HF. destruct HF as (f1 & f2 & ->).
    assert (r' <= length f1).
    { eapply (IH f1) with (gs := F :: f2); eauto. rewrite app_length. simpl. lia. }
    rewrite app_length. simpl. lia.
Qed.

Lemma not_in_climbs fs : layered dom n [] fs -> forall d, d < n -> ~ In d (concat fs) -> climbs ws d (length fs).
Proof.
  induction fs as [|f fs IH] using rev_ind; intros L d Hd Nd; [constructor; auto|].
  rewrite app_length. simpl. replace (length fs + 1) with (S (length fs)) by lia.
  apply layered_app in L. destruct L as [L0 L1]. simpl in L1. destruct L1 as (ND1 & I1 & _).
  rewrite concat_app in Nd. simpl in Nd. rewrite app_nil_r in Nd.
  destruct (find (fun y => dom d y && negb (memb y (concat fs))) (seq 0 n)) as [y|] eqn:F.
  - apply find_some in F. destruct F as [Hy F]. apply in_seq in Hy. apply andb_true_iff in F. destruct F as [D M].
    apply negb_true_iff, memb_false in M. apply (domb_spec ws m) in D; auto; try lia.
    econstructor; eauto. apply IH; auto. lia.
  - exfalso. apply Nd. apply in_or_app. right. apply I1. split; [auto|split].
    + intro K. apply Nd, in_or_app. auto.
    + intros y Hy D. destruct (in_dec Nat.eq_dec y (concat fs)) as [|N]; auto. exfalso.
      pose proof (find_none _ _ F y) as K. simpl in K. rewrite D in K. apply memb_false in N. rewrite N in K.
      discriminate K. apply in_seq. lia.
Qed.

Lemma rank_unique i r s : rank ws i r -> rank ws i s -> r = s.
Proof. intros [A B] [C D]. apply Nat.le_antisymm; auto. Qed.

Lemma climbs_weaken i r : climbs ws i r -> forall s, s <= r -> climbs ws i s.
Proof.
  induction 1; intros s Hs.
  - replace s with 0 by lia. constructor; auto.
  - destruct s; [constructor; apply beats_lt in H; tauto|]. econstructor; eauto. apply IHclimbs. lia.
Qed.

Lemma layered_levels fs : layered dom n [] fs -> levels ws fs.
Proof.
  intro L. split.
  - destruct fs as [|f fs _] using rev_ind; [constructor|]. apply layered_app in L. destruct L as [_ L]. simpl in L.
    rewrite concat_app. simpl. rewrite app_nil_r. tauto.
  - intros r F HF i. apply nth_error_split in HF. destruct HF as (f1 & f2 & E & El). subst fs r. split.
    + intro Hi. eapply layered_rank_at; eauto.
    + intros [C M].
      destruct (in_dec Nat.eq_dec i (concat (f1 ++ F :: f2))) as [K|K].
      * apply in_concat in K. destruct K as (G & HG & Hi). apply in_split in HG. destruct HG as (g1 & g2 & E).
        assert (R : rank ws i (length g1)).
        { rewrite E in L. eapply layered_rank_at; eauto. }
        assert (length g1 = length f1) by (eapply rank_unique; eauto; split; auto).
        assert (nth_error (f1 ++ F :: f2) (length f1) = Some F) by (rewrite nth_error_app2, Nat.sub_diag by lia; auto).
        assert (nth_error (g1 ++ G :: g2) (length g1) = Some G) by (rewrite nth_error_app2, Nat.sub_diag by lia; auto).
        rewrite E in H0. congruence.
      * exfalso. apply (not_in_climbs _ L) in K; [|eapply climbs_lt; eauto]. apply M in K. rewrite app_length in K. simpl in K. lia.
Qed.
End Ranks.

Lemma sort_levels ws m k : objectives m ws -> ws <> [] -> 0 < k ->
  exists fronts, sortNondominated ws k = Some fronts /\ levels ws fronts /\ just_enough (length ws) k fronts.
Proof.
  intros O Ne Hk.
  destruct (sort_layered (domb ws) (length ws) (domb_irr ws m O) (domb_trans ws m O) k) as (fs & E & L & A & B); auto.
  { destruct ws; [congruence|simpl; lia]. }
  exists fs. split; [exact E|split; [eapply layered_levels; eauto|split; auto]].
Qed.

Lemma levels_mutual ws fronts r F i j : levels ws fronts -> nth_error fronts r = Some F -> In i F -> In j F -> ~ beats ws i j.
Proof.
  intros [_ L] HF Hi Hj B. apply (L _ _ HF) in Hi, Hj. destruct Hi as [Ci Mi], Hj as [Cj Mj].
  assert (climbs ws j (S r)) by (econstructor; eauto). apply Mj in H. lia.
Qed.

Lemma levels_next ws fronts r F G j : levels ws fronts -> nth_error fronts r = Some F -> nth_error fronts (S r) = Some G ->
  In j G -> exists i, In i F /\ beats ws i j.
Proof.
  intros [_ L] HF HG Hj. apply (L _ _ HG) in Hj. destruct Hj as [C M]. inversion C as [|? i ? B C']; subst.
  exists i. split; auto. apply (L _ _ HF). split; auto. intros r' C''.
  assert (climbs ws j (S r')) by (econstructor; eauto). apply M in H. lia.
Qed.

Lemma levels_first ws fronts F i : levels ws fronts -> nth_error fronts 0 = Some F ->
  (In i F <-> i < length ws /\ forall j, ~ beats ws j i).
Proof.
  intros [_ L] HF. rewrite (L _ _ HF). split.
  - intros [C M]. split; [inversion C; auto|]. intros j B.
    assert (climbs ws i 1) by (econstructor; eauto; constructor; apply beats_lt in B; tauto). apply M in H. lia.
  - intros [Hi N]. split; [constructor; auto|]. intros r' C. destruct r'; [lia|]. inversion C; subst. exfalso. eapply N; eauto.
Qed.

(** ** NaN *)
Definition nan_ws : list (list fnum) :=
  [[Num 0; Num 1; NaN]; [Num 1; NaN; Num 0]; [NaN; Num 0; Num 1]]%Q.

Lemma nan_loops fuel k : 0 < k -> sortNondominated_nan fuel nan_ws k = None.
Proof.
  intro Hk. unfold sortNondominated_nan, nd_sort. replace (k =? 0) with false by (symmetry; apply Nat.eqb_neq; lia).
  set (st := nd_first _ _ _). assert (E : nd_cur st = []) by (vm_compute; reflexivity).
  rewrite E. cbn [length]. change (length nan_ws) with 3. generalize (nd_cnt st) as cnt. generalize ([@nil nat]) as fr.
  induction fuel as [|f IH]; intros fr cnt; cbn [nd_while].
  - replace (0 <? Nat.min 3 k) with true by (symmetry; apply Nat.ltb_lt; lia). auto.
  - replace (0 <? Nat.min 3 k) with true by (symmetry; apply Nat.ltb_lt; lia). unfold nd_peel. cbn [fold_left]. apply IH.
Qed.
