(** Facts about the shared optimizer pieces. *)
From Coq Require Import List Arith ZArith QArith Qround Bool Lia Lqa Permutation Sorted.
From Verif Require Import Base BaseFacts Space_Model Space_Spec Space_Facts Opt_Model Opt_Spec.
Import ListNotations.
Open Scope nat_scope.

Section Sort.
Context {A : Type} (key : A -> Q).
Lemma insert_desc_perm a l : Permutation (insert_desc key a l) (a :: l).
Proof.
  induction l as [|b l IH]; simpl; auto. destruct (Qle_bool _ _); auto.
  rewrite IH. apply perm_swap.
Qed.
Lemma sort_desc_perm l : Permutation (sort_desc key l) l.
Proof. induction l; simpl; auto. rewrite insert_desc_perm. auto. Qed.
Lemma insert_desc_sorted a l : StronglySorted (fun x y => (key y <= key x)%Q) l ->
  StronglySorted (fun x y => (key y <= key x)%Q) (insert_desc key a l).
Proof.
  induction l as [|b l IH]; simpl; intros H; [repeat constructor|].
  inversion H; subst. destruct (Qle_bool _ _) eqn:E; qprop.
  - constructor; auto. constructor; auto. rewrite Forall_forall in *. intros x Hx. pose proof (H3 x Hx). lra.
  - constructor; auto. eapply Permutation_Forall; [symmetry; apply insert_desc_perm|].
    constructor; auto. lra.
Qed.
Lemma sort_desc_sorted l : StronglySorted (fun x y => (key y <= key x)%Q) (sort_desc key l).
Proof. induction l; simpl; [constructor|]. apply insert_desc_sorted; auto. Qed.
Lemma insert_asc_perm a l : Permutation (insert_asc key a l) (a :: l).
Proof.
  induction l as [|b l IH]; simpl; auto. destruct (Qle_bool _ _); auto.
  rewrite IH. apply perm_swap.
Qed.
Lemma sort_asc_perm l : Permutation (sort_asc key l) l.
Proof. induction l; simpl; auto. rewrite insert_asc_perm. auto. Qed.
Lemma insert_asc_sorted a l : StronglySorted (fun x y => (key x <= key y)%Q) l ->
  StronglySorted (fun x y => (key x <= key y)%Q) (insert_asc key a l).
Proof.
  induction l as [|b l IH]; simpl; intros H; [repeat constructor|].
  inversion H; subst. destruct (Qle_bool _ _) eqn:E; qprop.
  - constructor; auto. constructor; auto. rewrite Forall_forall in *. intros x Hx. pose proof (H3 x Hx). lra.
  - constructor; auto. eapply Permutation_Forall; [symmetry; apply insert_asc_perm|].
    constructor; auto. lra.
Qed.
Lemma sort_asc_sorted l : StronglySorted (fun x y => (key x <= key y)%Q) (sort_asc key l).
Proof. induction l; simpl; [constructor|]. apply insert_asc_sorted; auto. Qed.
Lemma sort_desc_length l : length (sort_desc key l) = length l.
Proof. apply Permutation_length, sort_desc_perm. Qed.
Lemma sort_asc_length l : length (sort_asc key l) = length l.
Proof. apply Permutation_length, sort_asc_perm. Qed.
Lemma in_sort_desc l x : In x (sort_desc key l) <-> In x l.
Proof. split; apply Permutation_in; [|symmetry]; apply sort_desc_perm. Qed.
Lemma in_sort_asc l x : In x (sort_asc key l) <-> In x l.
Proof. split; apply Permutation_in; [|symmetry]; apply sort_asc_perm. Qed.
End Sort.

Lemma in_firstn {A} (l : list A) n x : In x (firstn n l) -> In x l.
Proof. revert n. induction l; destruct n; simpl; try tauto. intros [|]; auto. right. eauto. Qed.
Lemma in_skipn {A} (l : list A) n x : In x (skipn n l) -> In x l.
Proof. revert n. induction l; destruct n; simpl; try tauto. intros. right. eauto. Qed.
Lemma sorted_split {A} (R : A -> A -> Prop) l n : StronglySorted R l ->
  forall a b, In a (firstn n l) -> In b (skipn n l) -> R a b.
Proof.
  intros H. revert n. induction H as [|x l H IH F]; intros [|n] a b Ha Hb; simpl in *; try tauto.
  destruct Ha as [->|Ha].
  - rewrite Forall_forall in F. apply F. eapply in_skipn; eauto.
  - eapply IH; eauto.
Qed.

(** argmin / argmax *)
Lemma argmin_aux_spec l : forall i bi bv pre, length pre = i -> nth_error pre bi = Some bv ->
  (forall x, In x pre -> (bv <= x)%Q) -> (forall j x, j < bi -> nth_error pre j = Some x -> (bv < x)%Q) ->
  let (k, v) := argmin_aux i bi bv l in
  nth_error (pre ++ l) k = Some v /\ (forall x, In x (pre ++ l) -> (v <= x)%Q) /\
  (forall j x, j < k -> nth_error (pre ++ l) j = Some x -> (v < x)%Q).
Proof.
  induction l as [|y l IH]; intros i bi bv pre Hi Hb Hmin Hfst; cbn [argmin_aux].
  - rewrite app_nil_r. auto.
  - destruct (Qltb y bv) eqn:E; qprop.
    + specialize (IH (S i) i y (pre ++ [y])). rewrite <- app_assoc in IH. simpl in IH. apply IH.
      * rewrite app_length; simpl; lia.
      * rewrite nth_error_app2 by lia. rewrite Hi, Nat.sub_diag. reflexivity.
      * intros x Hx. apply in_app_iff in Hx. destruct Hx as [Hx|[<-|[]]]; [|apply Qle_refl]. pose proof (Hmin x Hx). lra.
      * intros j x Hj Hx. rewrite nth_error_app1 in Hx by lia. apply nth_error_In in Hx. pose proof (Hmin x Hx). lra.
    + specialize (IH (S i) bi bv (pre ++ [y])). rewrite <- app_assoc in IH. simpl in IH. apply IH.
      * rewrite app_length; simpl; lia.
      * assert (bi < length pre) by (apply nth_error_Some; congruence).
        rewrite nth_error_app1 by lia. exact Hb.
      * intros x Hx. apply in_app_iff in Hx. destruct Hx as [Hx|[<-|[]]]; auto.
      * assert (bi < length pre) by (apply nth_error_Some; congruence).
        intros j x Hj Hx. rewrite nth_error_app1 in Hx by lia. eauto.
Qed.
Lemma argmin_spec l k v : argmin l = Some (k, v) ->
  nth_error l k = Some v /\ (forall x, In x l -> (v <= x)%Q) /\
  (forall j x, j < k -> nth_error l j = Some x -> (v < x)%Q).
Proof.
  destruct l as [|a l]; [discriminate|]. cbn [argmin]. intros H. inversion H as [H0].
  pose proof (argmin_aux_spec l 1 0 a [a] eq_refl eq_refl) as S. rewrite H0 in S. simpl in S. apply S.
  - intros x [->|[]]; apply Qle_refl.
  - intros; lia.
Qed.
Lemma argmin_Some l : l <> [] -> exists k v, argmin l = Some (k, v).
Proof. destruct l; [congruence|]. intros _. cbn [argmin]. destruct (argmin_aux _ _ _ _); eauto. Qed.

Lemma argmax_aux_spec l : forall i bi bv pre, length pre = i -> nth_error pre bi = Some bv ->
  (forall x, In x pre -> (x <= bv)%Q) -> (forall j x, j < bi -> nth_error pre j = Some x -> (x < bv)%Q) ->
  let (k, v) := argmax_aux i bi bv l in
  nth_error (pre ++ l) k = Some v /\ (forall x, In x (pre ++ l) -> (x <= v)%Q) /\
  (forall j x, j < k -> nth_error (pre ++ l) j = Some x -> (x < v)%Q).
Proof.
  induction l as [|y l IH]; intros i bi bv pre Hi Hb Hmin Hfst; cbn [argmax_aux].
  - rewrite app_nil_r. auto.
  - destruct (Qltb bv y) eqn:E; qprop.
    + specialize (IH (S i) i y (pre ++ [y])). rewrite <- app_assoc in IH. simpl in IH. apply IH.
      * rewrite app_length; simpl; lia.
      * rewrite nth_error_app2 by lia. rewrite Hi, Nat.sub_diag. reflexivity.
      * intros x Hx. apply in_app_iff in Hx. destruct Hx as [Hx|[<-|[]]]; [|apply Qle_refl]. pose proof (Hmin x Hx). lra.
      * intros j x Hj Hx. rewrite nth_error_app1 in Hx by lia. apply nth_error_In in Hx. pose proof (Hmin x Hx). lra.
    + specialize (IH (S i) bi bv (pre ++ [y])). rewrite <- app_assoc in IH. simpl in IH. apply IH.
      * rewrite app_length; simpl; lia.
      * assert (bi < length pre) by (apply nth_error_Some; congruence).
        rewrite nth_error_app1 by lia. exact Hb.
      * intros x Hx. apply in_app_iff in Hx. destruct Hx as [Hx|[<-|[]]]; auto.
      * assert (bi < length pre) by (apply nth_error_Some; congruence).
        intros j x Hj Hx. rewrite nth_error_app1 in Hx by lia. eauto.
Qed.
Lemma argmax_spec l k v : argmax l = Some (k, v) ->
  nth_error l k = Some v /\ (forall x, In x l -> (x <= v)%Q) /\
  (forall j x, j < k -> nth_error l j = Some x -> (x < v)%Q).
Proof.
  destruct l as [|a l]; [discriminate|]. cbn [argmax]. intros H. inversion H as [H0].
  pose proof (argmax_aux_spec l 1 0 a [a] eq_refl eq_refl) as S. rewrite H0 in S. simpl in S. apply S.
  - intros x [->|[]]; apply Qle_refl.
  - intros; lia.
Qed.
Lemma argmax_Some l : l <> [] -> exists k v, argmax l = Some (k, v).
Proof. destruct l; [congruence|]. intros _. cbn [argmax]. destruct (argmax_aux _ _ _ _); eauto. Qed.

(** random individuals *)
Lemma gen_coord_ok d u k : (d_lo d <= d_hi d)%Q -> (d_int d = true -> is_int (d_lo d) /\ is_int (d_hi d)) ->
  (0 <= u)%Q -> (u <= 1)%Q ->
  (d_lo d <= gen_coord d u k)%Q /\ (gen_coord d u k <= d_hi d)%Q /\ (d_int d = true -> is_int (gen_coord d u k)).
Proof.
  intros H HI U0 U1. unfold gen_coord. destruct (d_int d) eqn:E.
  - destruct (HI eq_refl) as [I1 I2]. apply is_int_trunc in I1. apply is_int_trunc in I2.
    pose proof (trunc_mono _ _ H) as T.
    pose proof (Z.mod_pos_bound (Z.of_nat k) (trunc (d_hi d) - trunc (d_lo d) + 1)%Z ltac:(lia)) as B.
    repeat split.
    + rewrite <- I1 at 1. rewrite <- Zle_Qle. lia.
    + rewrite <- I2 at 2. rewrite <- Zle_Qle. lia.
    + intros _. eexists. reflexivity.
  - repeat split; try discriminate; nra.
Qed.
Lemma gen_indv_ok ds u k : wf_dims ds -> (forall i, (0 <= u i)%Q /\ (u i <= 1)%Q) -> feasible ds (gen_indv ds u k).
Proof.
  intros W U. unfold gen_indv. generalize 0 as i. induction W as [|d ds [W1 W2] W IH]; intros i; simpl; constructor.
  - apply gen_coord_ok; auto; apply U.
  - apply IH.
Qed.

Lemma map2_length {A B C} (f : A -> B -> C) l : forall r, length l = length r -> length (map2 f l r) = length l.
Proof. induction l; destruct r; simpl; intros; try lia. rewrite IHl; lia. Qed.
Lemma nth_error_map2 {A B C} (f : A -> B -> C) l : forall r i,
  nth_error (map2 f l r) i = match nth_error l i, nth_error r i with Some a, Some b => Some (f a b) | _, _ => None end.
Proof.
  induction l; intros [|b r] [|i]; simpl; auto; try (destruct (nth_error l i); reflexivity).
Qed.

(** best-of bookkeeping *)
Lemma as_max_good m a b : (as_max m b <= as_max m a)%Q <-> as_good m a b.
Proof. destruct m; simpl; split; lra. Qed.
Lemma as_min_good m a b : (as_min m a <= as_min m b)%Q <-> as_good m a b.
Proof. destruct m; simpl; split; lra. Qed.
Lemma as_good_refl m a : as_good m a a.
Proof. destruct m; simpl; lra. Qed.
Lemma as_good_trans m a b c : as_good m a b -> as_good m b c -> as_good m a c.
Proof. destruct m; simpl; lra. Qed.
Global Instance as_good_Proper m : Proper (Qeq ==> Qeq ==> iff) (as_good m).
Proof. intros a b H c d H'. destruct m; simpl; rewrite H, H'; reflexivity. Qed.
Global Instance as_min_Proper m : Proper (Qeq ==> Qeq) (as_min m).
Proof. intros a b H. destruct m; simpl; rewrite H; reflexivity. Qed.
Global Instance as_max_Proper m : Proper (Qeq ==> Qeq) (as_max m).
Proof. intros a b H. destruct m; simpl; rewrite H; reflexivity. Qed.
Lemma as_min_invol m a : (as_min m (as_min m a) == a)%Q.
Proof. destruct m; simpl; lra. Qed.
Lemma as_max_invol m a : (as_max m (as_max m a) == a)%Q.
Proof. destruct m; simpl; lra. Qed.

(** Minimum over a log, in the internal (minimising) scale. *)
Definition min_of {X} (g : X -> Q) (seen : list X) (x : X) (y : Q) : Prop :=
  In x seen /\ (y == g x)%Q /\ forall z, In z seen -> (y <= g z)%Q.
Definition max_of {X} (g : X -> Q) (seen : list X) (x : X) (y : Q) : Prop :=
  In x seen /\ (y == g x)%Q /\ forall z, In z seen -> (g z <= y)%Q.

Lemma min_of_best {X} m (fit : X -> Q) seen x y :
  min_of (fun z => as_min m (fit z)) seen x y -> best_of m fit seen x (as_min m y).
Proof.
  intros (H1 & H2 & H3). split; auto. split.
  - rewrite H2. apply as_min_invol.
  - intros z Hz. apply as_min_good. rewrite as_min_invol. auto.
Qed.
Lemma max_of_best {X} m (fit : X -> Q) seen x y :
  max_of (fun z => as_max m (fit z)) seen x y -> best_of m fit seen x (as_max m y).
Proof.
  intros (H1 & H2 & H3). split; auto. split.
  - rewrite H2. apply as_max_invol.
  - intros z Hz. apply as_max_good. rewrite as_max_invol. auto.
Qed.

Lemma min_of_app {X} (g : X -> Q) s1 s2 x1 y1 x2 y2 :
  min_of g s1 x1 y1 -> min_of g s2 x2 y2 ->
  ((y1 <= y2)%Q -> min_of g (s1 ++ s2) x1 y1) /\ ((y2 <= y1)%Q -> min_of g (s1 ++ s2) x2 y2).
Proof.
  intros (A1 & A2 & A3) (B1 & B2 & B3). split; intros H; (split; [apply in_app_iff; auto|split; auto]);
  intros z Hz; apply in_app_iff in Hz; destruct Hz as [Hz|Hz];
  try pose proof (A3 z Hz); try pose proof (B3 z Hz); lra.
Qed.
Lemma max_of_app {X} (g : X -> Q) s1 s2 x1 y1 x2 y2 :
  max_of g s1 x1 y1 -> max_of g s2 x2 y2 ->
  ((y2 <= y1)%Q -> max_of g (s1 ++ s2) x1 y1) /\ ((y1 <= y2)%Q -> max_of g (s1 ++ s2) x2 y2).
Proof.
  intros (A1 & A2 & A3) (B1 & B2 & B3). split; intros H; (split; [apply in_app_iff; auto|split; auto]);
  intros z Hz; apply in_app_iff in Hz; destruct Hz as [Hz|Hz];
  try pose proof (A3 z Hz); try pose proof (B3 z Hz); lra.
Qed.
Lemma min_of_single {X} (g : X -> Q) x : min_of g [x] x (g x).
Proof. split; [left; auto|]. split; [reflexivity|]. intros z [->|[]]. apply Qle_refl. Qed.
Lemma max_of_single {X} (g : X -> Q) x : max_of g [x] x (g x).
Proof. split; [left; auto|]. split; [reflexivity|]. intros z [->|[]]. apply Qle_refl. Qed.
Lemma min_of_argmin {X} (g : X -> Q) l k v : argmin (map g l) = Some (k, v) ->
  exists x, nth_error l k = Some x /\ min_of g l x v.
Proof.
  intros H. apply argmin_spec in H. destruct H as (H1 & H2 & _).
  rewrite nth_error_map in H1. destruct (nth_error l k) as [x|] eqn:E; [|discriminate].
  simpl in H1. inversion H1; subst. exists x. split; auto. split; [eapply nth_error_In; eauto|].
  split; [reflexivity|]. intros z Hz. apply H2. apply in_map; auto.
Qed.
Lemma max_of_argmax {X} (g : X -> Q) l k v : argmax (map g l) = Some (k, v) ->
  exists x, nth_error l k = Some x /\ max_of g l x v.
Proof.
  intros H. apply argmax_spec in H. destruct H as (H1 & H2 & _).
  rewrite nth_error_map in H1. destruct (nth_error l k) as [x|] eqn:E; [|discriminate].
  simpl in H1. inversion H1; subst. exists x. split; auto. split; [eapply nth_error_In; eauto|].
  split; [reflexivity|]. intros z Hz. apply H2. apply in_map; auto.
Qed.

(** accumulate *)
Lemma acc_from_length f l : forall a, length (acc_from f a l) = length l.
Proof. induction l; simpl; auto. Qed.
Lemma accumulate_length f l : length (accumulate f l) = length l.
Proof. destruct l; simpl; auto. rewrite acc_from_length. auto. Qed.

Lemma nth_error_last {A} (l : list A) d : l <> [] -> nth_error l (length l - 1) = Some (last l d).
Proof.
  induction l as [|a l IH]; [congruence|]. intros _. destruct l as [|b l]; [reflexivity|].
  replace (length (a :: b :: l) - 1) with (S (length (b :: l) - 1)) by (simpl; lia).
  cbn [nth_error]. rewrite IH by congruence. reflexivity.
Qed.
