(** More lemmas shared by the optimizer proofs: clipping into a space, sampling without
    replacement, running best, loops over draws. *)
From Coq Require Import List Arith ZArith QArith Bool Lia Lqa Sorted Permutation Morphisms FinFun.
From Verif Require Import Base BaseFacts Space_Model Space_Spec Space_Facts Opt_Model Opt_Spec Opt_Facts.
Import ListNotations.
Open Scope nat_scope.

Lemma wf_proper ds : wf_dims ds -> proper_bounds (dim_bounds ds).
Proof.
  unfold wf_dims, proper_bounds, dim_bounds. intros H. induction H as [|d ds [H _] F IH]; simpl; constructor; auto.
Qed.
Lemma dim_bounds_length ds : length (dim_bounds ds) = length ds.
Proof. apply map_length. Qed.

Lemma clip_inside ds v : wf_dims ds -> length v = length ds -> inside (dim_bounds ds) (clip_vec (dim_bounds ds) v).
Proof. intros W L. apply clip_vec_spec; [apply wf_proper; auto|rewrite dim_bounds_length; auto]. Qed.
Lemma clip_id ds v : wf_dims ds -> inside (dim_bounds ds) v -> clip_vec (dim_bounds ds) v = v.
Proof. intros W H. apply clip_vec_spec; auto using wf_proper. apply inside_length; auto. Qed.

Lemma feasible_inside ds v : feasible ds v -> inside (dim_bounds ds) v.
Proof. intros H. apply inside_dims. eapply Forall2_impl; [|exact H]. simpl. tauto. Qed.
Lemma feasible_length ds v : feasible ds v -> length v = length ds.
Proof. intros H. symmetry. eapply Forall2_length; eauto. Qed.

(** Truncating the integer coordinates of a vector inside the bounds. *)
Lemma trunc_feasible ds v : wf_dims ds -> inside (dim_bounds ds) v ->
  feasible ds (map2 (fun d x => if d_int d then inject_Z (trunc x) else x) ds v).
Proof.
  intros W H. apply inside_dims in H. induction H as [|d x ds v [H1 H2] F IH]; simpl; constructor.
  - inversion W as [|? ? [W1 W2] W']; subst. destruct (d_int d) eqn:E.
    + destruct (W2 eq_refl) as [I1 I2]. apply is_int_trunc in I1. apply is_int_trunc in I2.
      repeat split.
      * rewrite <- I1, <- Zle_Qle. apply trunc_mono; auto.
      * rewrite <- I2, <- Zle_Qle. apply trunc_mono; auto.
      * intros _. eexists; reflexivity.
    + repeat split; auto. discriminate.
  - inversion W; subst. apply IH; auto.
Qed.
(** Final clipping keeps integers: bounds of integer variables are integers. *)
Lemma clip_feasible ds v : wf_dims ds ->
  Forall2 (fun d x => d_int d = true -> is_int x) ds v -> feasible ds (clip_vec (dim_bounds ds) v).
Proof.
  intros W F. induction F as [|d x ds v Hx F IH]; [constructor|].
  inversion W as [|? ? [W1 W2] W']; subst. cbn [dim_bounds map]. fold (dim_bounds ds).
  rewrite clip_vec_cons by auto. constructor; [|apply IH; auto].
  pose proof (clip1_inside (d_lo d) (d_hi d) x W1) as [C1 C2]. repeat split; auto.
  intros E. unfold clip1. destruct (W2 E) as [I1 I2]. destruct (Qltb x (d_lo d)); auto. destruct (Qltb _ x); auto.
Qed.

Lemma Forall_set_nth {A} (P : A -> Prop) l i x : Forall P l -> P x -> Forall P (set_nth l i x).
Proof. intros F Hx. revert i. induction F; intros [|i]; simpl; constructor; auto. Qed.

Lemma clip_length ds v : wf_dims ds -> length v = length ds -> length (clip_vec (dim_bounds ds) v) = length ds.
Proof. intros W L. rewrite (inside_length _ _ (clip_inside ds v W L)). apply dim_bounds_length. Qed.

(* ---------- running best ---------- *)
Definition acc_op (m : mode) : Q -> Q -> Q := match m with Mmin => qmin2 | Mmax => qmax2 end.
Lemma acc_op_good m a b : as_good m (acc_op m a b) a /\ as_good m (acc_op m a b) b /\ (acc_op m a b = a \/ acc_op m a b = b).
Proof.
  destruct m; simpl; unfold qmin2, qmax2; destruct (Qle_bool _ _) eqn:E; qprop; repeat split; auto; lra.
Qed.

Lemma acc_from_spec m l : forall a i v, nth_error (acc_from (acc_op m) a l) i = Some v ->
  as_good m v a /\ (forall x, In x (firstn (S i) l) -> as_good m v x) /\ (v = a \/ In v (firstn (S i) l)).
Proof.
  induction l as [|x l IH]; intros a i v H; simpl in H; [destruct i; discriminate|].
  destruct (acc_op_good m a x) as (G1 & G2 & G3).
  destruct i as [|i]; cbn [nth_error] in H.
  - inversion H; subst. split; auto. split; [intros y [<-|[]]; auto|]. destruct G3 as [-> | ->]; simpl; auto.
  - destruct (IH _ _ _ H) as (I1 & I2 & I3). split; [eapply as_good_trans; eauto|]. split.
    + intros y [<-|Hy]; [eapply as_good_trans; eauto|auto].
    + destruct I3 as [->|I3]; [|right; right; auto]. destruct G3 as [-> | ->]; [auto|right; left; auto].
Qed.
Lemma accumulate_spec m l i v : nth_error (accumulate (acc_op m) l) i = Some v ->
  (forall x, In x (firstn (S i) l) -> as_good m v x) /\ In v (firstn (S i) l).
Proof.
  destruct l as [|a l]; [destruct i; discriminate|]. destruct i as [|i]; cbn [accumulate nth_error].
  - intros H; inversion H; subst. split; [intros x [<-|[]]; apply as_good_refl|left; auto].
  - intros H. apply acc_from_spec in H. destruct H as (H1 & H2 & H3). split.
    + intros x [<-|Hx]; auto.
    + destruct H3 as [->|H3]; [left; auto|right; auto].
Qed.
Lemma firstn_mono {A} (l : list A) i j x : i <= j -> In x (firstn i l) -> In x (firstn j l).
Proof. revert i j. induction l; intros [|i] [|j] L; simpl; try tauto; try lia. intros [|]; auto. right. eapply IHl; [|eauto]. lia. Qed.
Lemma accumulate_never_worse m l : never_worse m (accumulate (acc_op m) l).
Proof.
  intros i j a b L Ha Hb. apply accumulate_spec in Ha. apply accumulate_spec in Hb.
  apply Hb. eapply firstn_mono; [|apply Ha]. lia.
Qed.


Lemma bind_Some {A B} (x : option A) (f : A -> option B) b : bind x f = Some b -> exists a, x = Some a /\ f a = Some b.
Proof. destruct x; simpl; [eauto|discriminate]. Qed.

(* ---------- sampling without replacement ---------- *)
Lemma remove_at_app {A} (l r : list A) x : remove_at (l ++ x :: r) (length l) = l ++ r.
Proof. induction l; simpl; congruence. Qed.
Lemma remove_at_perm {A} (l : list A) i x : nth_error l i = Some x -> Permutation l (x :: remove_at l i).
Proof.
  intros H. apply nth_error_split in H. destruct H as (l1 & l2 & -> & <-).
  rewrite remove_at_app. symmetry. apply Permutation_middle.
Qed.
Lemma sample_perm {A} ds : forall (l r : list A), sample l ds = Some r ->
  length r = length ds /\ exists rest, Permutation l (r ++ rest).
Proof.
  induction ds as [|d ds IH]; intros l r H; cbn [sample] in H.
  - inversion H; subst. split; auto. exists l. reflexivity.
  - destruct (nth_error l _) as [x|] eqn:E; [|discriminate].
    destruct (sample _ ds) as [r'|] eqn:E2; [|discriminate]. inversion H; subst.
    destruct (IH _ _ E2) as (L & rest & P). split; [simpl; auto|]. exists rest.
    rewrite (remove_at_perm _ _ _ E), P. reflexivity.
Qed.
Lemma sample_incl {A} (l : list A) ds r : sample l ds = Some r -> incl r l.
Proof.
  intros H. apply sample_perm in H. destruct H as (_ & rest & P). intros x Hx.
  eapply Permutation_in; [symmetry; exact P|]. apply in_app_iff; auto.
Qed.
Lemma NoDup_app_l {A} (a b : list A) : NoDup (a ++ b) -> NoDup a.
Proof.
  induction a; simpl; intros H; [constructor|]. inversion H; subst. constructor; auto.
  intros Hn. apply H2. apply in_app_iff; auto.
Qed.
Lemma sample_NoDup {A} (l : list A) ds r : NoDup l -> sample l ds = Some r -> NoDup r.
Proof.
  intros N H. apply sample_perm in H. destruct H as (_ & rest & P).
  eapply NoDup_app_l. eapply Permutation_NoDup; eauto.
Qed.
Lemma remove_at_length {A} (l : list A) i : i < length l -> length (remove_at l i) = length l - 1.
Proof. revert i. induction l; intros [|i] H; simpl in *; try lia. rewrite IHl; lia. Qed.
Lemma sample_total {A} ds : forall (l : list A), length ds <= length l -> exists r, sample l ds = Some r.
Proof.
  induction ds as [|d ds IH]; intros l H; cbn [sample]; eauto. simpl in H.
  pose proof (Nat.mod_upper_bound d (length l) ltac:(lia)) as B.
  destruct (nth_error l _) as [x|] eqn:E; [|apply nth_error_None in E; lia].
  destruct (IH (remove_at l (d mod length l))) as (r & ->); [rewrite remove_at_length; lia|eauto].
Qed.

(* ---------- loops over draws ---------- *)
Lemma iter_steps_length {S D O} (step : S -> D -> option (S * O)) ds : forall s s' os,
  iter_steps step s ds = Some (s', os) -> length os = length ds.
Proof.
  induction ds as [|d ds IH]; intros s s' os H; cbn [iter_steps] in H; [inversion H; auto|].
  destruct (step s d) as [[s1 o]|]; [|discriminate]. destruct (iter_steps step s1 ds) as [[s2 os2]|] eqn:E; [|discriminate].
  inversion H; subst. simpl. f_equal. eauto.
Qed.
Lemma iter_steps_inv {S D O} (step : S -> D -> option (S * O)) (I : S -> Prop) (P : O -> Prop) ds :
  (forall s d s' o, In d ds -> I s -> step s d = Some (s', o) -> I s' /\ P o) ->
  forall s s' os, I s -> iter_steps step s ds = Some (s', os) -> I s' /\ Forall P os.
Proof.
  induction ds as [|d ds IH]; intros Hs s s' os Hi H; cbn [iter_steps] in H; [inversion H; subst; auto|].
  destruct (step s d) as [[s1 o]|] eqn:E1; [|discriminate].
  destruct (iter_steps step s1 ds) as [[s2 os2]|] eqn:E; [|discriminate]. inversion H; subst.
  destruct (Hs _ _ _ _ (or_introl eq_refl) Hi E1) as [H1 H2].
  destruct (IH (fun s d s' o Hd => Hs s d s' o (or_intror Hd)) _ _ _ H1 E) as [H3 H4]. auto.
Qed.
Lemma iter_steps_total {S D O} (step : S -> D -> option (S * O)) (I : S -> Prop) ds :
  (forall s d, In d ds -> I s -> exists s' o, step s d = Some (s', o) /\ I s') ->
  forall s, I s -> exists s' os, iter_steps step s ds = Some (s', os).
Proof.
  induction ds as [|d ds IH]; intros Hs s Hi; cbn [iter_steps]; eauto.
  destruct (Hs s d (or_introl eq_refl) Hi) as (s' & o & E & Hi'). rewrite E.
  destruct (IH (fun s d Hd => Hs s d (or_intror Hd)) s' Hi') as (s2 & os & ->). eauto.
Qed.

(* ---------- discretisation that keeps the values ---------- *)

Lemma ensure_keeps expf alpha mt rand pick ds v : keeps_ints mt ds -> wf_dims ds -> inside (dim_bounds ds) v ->
  exists v', ensure_discrete expf alpha mt rand pick ds v = Some v' /\ feasible ds v' /\
    (feasible ds v -> Forall2 Qeq v' v).
Proof.
  intros K W I. destruct (ensure_discrete_ok expf alpha mt rand pick ds v) as (v' & E & F & N); auto.
  - destruct K as [->|[K _]]; [discriminate|auto].
  - destruct K as [->|[_ K]]; [auto|]. right. eapply Forall_impl; [|exact K]. simpl. congruence.
  - exists v'. split; auto. split; auto. intros Fv.
    assert (L : length v' = length v). { rewrite (feasible_length _ _ F), (feasible_length _ _ Fv). auto. }
    clear E I F W. revert v v' Fv L N. induction ds as [|d ds IH]; intros v v' Fv L N.
    + inversion Fv; subst. destruct v'; [constructor|discriminate].
    + inversion Fv as [|? x ? v0 [H1 [H2 H3]] Fv']; subst. destruct v' as [|y v']; [discriminate|].
      constructor.
      * destruct (N 0 d x y eq_refl eq_refl eq_refl) as [N1 N2]. destruct (d_int d) eqn:Ed.
        { destruct K as [->|[_ K]]; [|inversion K; congruence]. rewrite (N2 eq_refl eq_refl).
          apply is_int_trunc. auto. }
        { rewrite (N1 eq_refl). reflexivity. }
      * apply IH; auto.
        { destruct K as [->|[K1 K2]]; [left; auto|right; split; auto; inversion K2; auto]. }
        intros i d' x' y' Hd Hx Hy. exact (N (S i) d' x' y' Hd Hx Hy).
Qed.

Lemma Forall2_Qeq_refl v : Forall2 Qeq v v.
Proof. induction v; constructor; auto. reflexivity. Qed.
Lemma Forall2_Qeq_sym v w : Forall2 Qeq v w -> Forall2 Qeq w v.
Proof. intros H. induction H; constructor; auto. symmetry. auto. Qed.

(** Maximum over a log as a set of entries dominated by [y]. *)
Lemma max_of_ext {X} (g : X -> Q) s x y : In x s -> (y == g x)%Q -> (forall z, In z s -> (g z <= y)%Q) -> max_of g s x y.
Proof. split; auto. Qed.

(* ---------- traverse and generation loops ---------- *)
Lemma traverse_spec {A B} (f : nat -> A -> option B) l : forall i l', traverse f i l = Some l' ->
  length l' = length l /\
  forall k a, nth_error l k = Some a -> exists b, nth_error l' k = Some b /\ f (i + k) a = Some b.
Proof.
  induction l as [|a l IH]; intros i l' H; cbn [traverse] in H.
  - inversion H; subst. split; auto. intros [|k]; discriminate.
  - apply bind_Some in H. destruct H as (b & Hb & H). apply bind_Some in H. destruct H as (bs & Hbs & H).
    inversion H; subst. destruct (IH _ _ Hbs) as [L N]. split; [simpl; auto|].
    intros [|k] a' Ha; cbn [nth_error] in *.
    + inversion Ha; subst. exists b. rewrite Nat.add_0_r. auto.
    + destruct (N k a' Ha) as (b' & Hb' & Hf). exists b'. split; auto. rewrite <- Hf. f_equal. lia.
Qed.
Lemma traverse_Forall {A B} (f : nat -> A -> option B) (P : A -> Prop) (R : B -> Prop) l : forall i l',
  (forall k a b, P a -> f k a = Some b -> R b) -> Forall P l -> traverse f i l = Some l' -> Forall R l'.
Proof.
  induction l as [|a l IH]; intros i l' HP F H; cbn [traverse] in H; [inversion H; constructor|].
  apply bind_Some in H. destruct H as (b & Hb & H). apply bind_Some in H. destruct H as (bs & Hbs & H).
  inversion H; subst. inversion F; subst. constructor; eauto.
Qed.
Lemma traverse_Forall2 {A B} (f : nat -> A -> option B) (R : A -> B -> Prop) l : forall i l',
  (forall k a b, In a l -> f k a = Some b -> R a b) -> traverse f i l = Some l' -> Forall2 R l l'.
Proof.
  induction l as [|a l IH]; intros i l' HP H; cbn [traverse] in H; [inversion H; constructor|].
  apply bind_Some in H. destruct H as (b & Hb & H). apply bind_Some in H. destruct H as (bs & Hbs & H).
  inversion H; subst. constructor; [eapply HP; simpl; eauto|eapply IH; [|eauto]].
  intros; eapply HP; simpl; eauto.
Qed.
Lemma traverse_total {A B} (f : nat -> A -> option B) (P : A -> Prop) l : forall i,
  (forall k a, P a -> exists b, f k a = Some b) -> Forall P l -> exists l', traverse f i l = Some l'.
Proof.
  induction l as [|a l IH]; intros i HP F; cbn [traverse]; eauto. inversion F; subst.
  destruct (HP i a H1) as (b & ->). destruct (IH (S i) HP H2) as (bs & ->). cbn [bind]. eauto.
Qed.

Lemma gens_inv {S} (step : nat -> S -> option S) (I : S -> Prop) :
  (forall g s s', I s -> step g s = Some s' -> I s') ->
  forall todo g s s', I s -> gens step g todo s = Some s' -> I s'.
Proof.
  intros H. induction todo as [|t IH]; intros g s s' Hi E; cbn [gens] in E; [inversion E; subst; auto|].
  apply bind_Some in E. destruct E as (s1 & E1 & E). eauto.
Qed.
Lemma gens_total {S} (step : nat -> S -> option S) (I : S -> Prop) :
  (forall g s, I s -> exists s', step g s = Some s' /\ I s') ->
  forall todo g s, I s -> exists s', gens step g todo s = Some s' /\ I s'.
Proof.
  intros H. induction todo as [|t IH]; intros g s Hi; cbn [gens]; eauto.
  destruct (H g s Hi) as (s1 & -> & H1). cbn [bind]. eauto.
Qed.
Lemma gens_count {S} (step : nat -> S -> option S) (f : S -> nat) (c : nat) :
  (forall g s s', step g s = Some s' -> f s' = c + f s) ->
  forall todo g s s', gens step g todo s = Some s' -> f s' = todo * c + f s.
Proof.
  intros H. induction todo as [|t IH]; intros g s s' E; cbn [gens] in E; [inversion E; subst; auto|].
  apply bind_Some in E. destruct E as (s1 & E1 & E). rewrite (IH _ _ _ E), (H _ _ _ E1). lia.
Qed.
Lemma gens_last {S} (step : nat -> S -> option S) (P : S -> Prop) :
  (forall g s s', step g s = Some s' -> P s') ->
  forall todo g s s', 1 <= todo -> gens step g todo s = Some s' -> P s'.
Proof.
  intros H. induction todo as [|t IH]; intros g s s' L E; [lia|]. cbn [gens] in E.
  apply bind_Some in E. destruct E as (s1 & E1 & E). destruct t as [|t].
  - cbn [gens] in E. inversion E; subst. eauto.
  - eapply IH; [|exact E]. lia.
Qed.

(** Concrete spaces and points. *)
Ltac demo_space := repeat constructor; simpl; try (unfold Qle; simpl; lia); try discriminate; intros; eexists; reflexivity.
