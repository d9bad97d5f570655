(** Proofs about alpinen1, alpinen2 and ridge. *)
From Coq Require Import List Reals ZArith Lra Lia Psatz Permutation.
From Verif Require Import BM_Model BX_Model BX_Spec.
Import ListNotations.
Open Scope R_scope.

(** ** alpinen1 *)
Lemma a1_cons x l : alpinen1 (x :: l) = Rabs (x * (sin x + 1 / 10)) + alpinen1 l.
Proof. unfold alpinen1. simpl. f_equal. f_equal. lra. Qed.
Lemma a1_nonneg l : 0 <= alpinen1 l.
Proof. induction l as [|x l IH]; [unfold alpinen1; simpl; lra|]. rewrite a1_cons. pose proof (Rabs_pos (x * (sin x + 1 / 10))). lra. Qed.
Theorem a1_zero l : 0 <= alpinen1 l /\ (alpinen1 l = 0 <-> Forall (fun x => x = 0 \/ sin x = - (1 / 10)) l).
Proof.
  split; [apply a1_nonneg|]. induction l as [|x l IH]; [split; [constructor|intros _; reflexivity]|]. rewrite a1_cons.
  pose proof (Rabs_pos (x * (sin x + 1 / 10))) as P. pose proof (a1_nonneg l) as Q. split.
  - intros H. assert (E : Rabs (x * (sin x + 1 / 10)) = 0) by lra. constructor; [|apply IH; lra].
    destruct (Req_dec (x * (sin x + 1 / 10)) 0) as [Z|Z]; [|apply Rabs_no_R0 in Z; contradiction].
    apply Rmult_integral in Z as [Z|Z]; [now left|right; lra].
  - intros H. inversion H as [|? ? A B]; subst. apply IH in B. rewrite B.
    assert (Z : x * (sin x + 1 / 10) = 0) by (destruct A as [->| ->]; lra). rewrite Z, Rabs_R0. lra.
Qed.
Theorem a1_others n : exists t, t <> 0 /\ -1 < t < 0 /\ alpinen1 (repeat t n) = 0 /\ alpinen1 (repeat 0 n) = 0.
Proof.
  assert (S : exists t, -1 <= t <= 0 /\ sin t + 1 / 10 = 0).
  { destruct (IVT_cor (fun t => sin t + 1 / 10) (-1) 0) as (t & Ht & E); [| lra | |].
    - intros x. apply continuity_pt_plus; [apply continuity_sin|apply continuity_pt_const; intros a b; reflexivity].
    - rewrite sin_0. assert (sin (-1) <= - (1 / 10)).
      { replace (-1) with (- (1)) by lra. rewrite sin_neg. assert (1 / 10 <= sin 1); [|lra]. pose proof PI2_3_2. pose proof PI_4.
        assert (sin (PI / 6) <= sin 1); [|rewrite sin_PI6 in *; lra]. apply sin_incr_1; lra. }
      nra.
    - exists t. split; assumption. }
  destruct S as (t & Ht & E). exists t.
  assert (t <> 0) by (intros ->; rewrite sin_0 in E; lra).
  assert (t <> -1).
  { intros ->. replace (-1) with (- (1)) in E by lra. rewrite sin_neg in E. pose proof PI2_3_2. pose proof PI_4. assert (sin (PI / 6) <= sin 1) by (apply sin_incr_1; lra). rewrite sin_PI6 in *. lra. }
  repeat split; try assumption; try lra; apply a1_zero; apply Forall_forall; intros y Hy; apply repeat_spec in Hy; subst; [right; lra|now left].
Qed.
Theorem a1_perm l l' : Permutation l l' -> alpinen1 l = alpinen1 l'.
Proof. induction 1; rewrite ?a1_cons; lra. Qed.

(** ** alpinen2 *)
Lemma a2_from acc l : Forall (fun x => 0 <= x) l -> alpinen2_from acc l = Some (acc * alpine_product l).
Proof.
  intros H. revert acc. induction H as [|x l P _ IH]; intros acc; simpl; [f_equal; lra|]. unfold msqrt.
  destruct (Rle_dec 0 x) as [_|N]; [|contradiction]. rewrite IH. f_equal. lra.
Qed.
Lemma a2_raise acc l : Exists (fun x => x < 0) l -> alpinen2_from acc l = None.
Proof.
  intros H. revert acc. induction H as [x l P|x l _ IH]; intros acc; simpl; unfold msqrt.
  - destruct (Rle_dec 0 x); [lra|reflexivity].
  - destruct (Rle_dec 0 x); [apply IH|reflexivity].
Qed.
Theorem a2_value l : (Forall (fun x => 0 <= x) l -> alpinen2 l = Some (alpine_product l)) /\ (Exists (fun x => x < 0) l -> alpinen2 l = None).
Proof. split; intros H; unfold alpinen2; [rewrite a2_from by exact H; f_equal; lra|now apply a2_raise]. Qed.
Lemma product_bound l : Forall (fun x => 0 <= x) l -> alpine_product l * alpine_product l <= volume l /\ 0 <= volume l.
Proof.
  induction 1 as [|x l P _ [IH V]]; simpl; [lra|]. split; [|nra].
  pose proof (sqrt_sqrt x P) as S. pose proof (SIN_bound x) as B.
  assert (sin x * sin x <= 1) by nra. assert (0 <= sin x * sin x) by nra.
  replace (sqrt x * sin x * alpine_product l * (sqrt x * sin x * alpine_product l)) with ((sqrt x * sqrt x) * ((sin x * sin x) * (alpine_product l * alpine_product l))) by ring. rewrite S.
  apply Rmult_le_compat_l; [exact P|]. assert (0 <= alpine_product l * alpine_product l) by nra. nra.
Qed.
Theorem a2_bound l v : alpinen2 l = Some v -> v * v <= volume l.
Proof.
  intros H. destruct (Forall_Exists_dec (fun x => 0 <= x) (Rle_dec 0) l) as [F|E].
  - rewrite (proj1 (a2_value l) F) in H. injection H as <-. now apply product_bound.
  - assert (Exists (fun x => x < 0) l) as E' by (eapply Exists_impl; [|exact E]; intros; cbv beta in *; lra).
    rewrite (proj2 (a2_value l) E') in H. discriminate.
Qed.
Lemma product_app l l' : alpine_product (l ++ l') = alpine_product l * alpine_product l'.
Proof. induction l as [|x l IH]; simpl; [lra|rewrite IH; lra]. Qed.
Theorem a2_app l l' v v' : alpinen2 l = Some v -> alpinen2 l' = Some v' -> alpinen2 (l ++ l') = Some (v * v').
Proof.
  intros H H'.
  assert (F : forall k w, alpinen2 k = Some w -> Forall (fun x => 0 <= x) k /\ w = alpine_product k).
  { intros k w K. destruct (Forall_Exists_dec (fun x => 0 <= x) (Rle_dec 0) k) as [F|E].
    - split; [exact F|]. rewrite (proj1 (a2_value k) F) in K. now injection K as <-.
    - assert (Exists (fun x => x < 0) k) as E' by (eapply Exists_impl; [|exact E]; intros; cbv beta in *; lra). rewrite (proj2 (a2_value k) E') in K. discriminate. }
  apply F in H as [A ->]. apply F in H' as [B ->]. rewrite <- product_app. apply a2_value. apply Forall_app. now split.
Qed.
(** Neither a least nor a greatest value. *)
Lemma sin_top k : sin (PI / 2 + 2 * INR k * PI) = 1.
Proof. rewrite sin_period. apply sin_PI2. Qed.
Lemma sin_bottom k : sin (3 * (PI / 2) + 2 * INR k * PI) = -1.
Proof. rewrite sin_period. apply sin_3PI2. Qed.
Lemma product_tops n : 1 <= alpine_product (repeat (PI / 2) n).
Proof.
  induction n as [|n IH]; [simpl; lra|]. simpl. rewrite sin_PI2. assert (1 <= sqrt (PI / 2)); [|nra].
  rewrite <- sqrt_1. apply sqrt_le_1_alt. pose proof PI2_3_2. lra.
Qed.
Lemma far (M : R) : exists k : nat, forall x, 0 <= x -> M < sqrt (x + 2 * INR k * PI).
Proof.
  assert (K : exists k : nat, M * M < INR k).
  { destruct (archimed (M * M)) as [A _]. exists (Z.to_nat (up (M * M))). rewrite INR_IZR_INZ, Z2Nat.id; [exact A|]. apply le_IZR. pose proof (Rle_0_sqr M). unfold Rsqr in *. lra. }
  destruct K as [k Hk]. exists k. intros x Hx.
  pose proof PI2_3_2. pose proof (pos_INR k). assert (M * M < x + 2 * INR k * PI) by nra.
  destruct (Rlt_le_dec M 0) as [N|N]; [pose proof (sqrt_pos (x + 2 * INR k * PI)); lra|].
  rewrite <- (sqrt_square M) by exact N. apply sqrt_lt_1_alt. split; [nra|assumption].
Qed.
Theorem a2_unbounded n M : (1 <= n)%nat -> (exists z v, length z = n /\ Forall (fun x => 0 <= x) z /\ alpinen2 z = Some v /\ v < M) /\
  exists z v, length z = n /\ Forall (fun x => 0 <= x) z /\ alpinen2 z = Some v /\ M < v.
Proof.
  intros Hn. destruct n as [|n]; [lia|]. pose proof PI2_3_2 as P2. pose proof (product_tops n) as T. set (r := repeat (PI / 2) n) in *.
  assert (Fr : Forall (fun x => 0 <= x) r) by (apply Forall_forall; intros x Hx; apply repeat_spec in Hx; subst; lra).
  split.
  - destruct (far (Rabs M)) as [k Hk]. specialize (Hk (3 * (PI / 2)) ltac:(lra)). pose proof (pos_INR k).
    exists ((3 * (PI / 2) + 2 * INR k * PI) :: r). eexists. split; [simpl; unfold r; now rewrite repeat_length|].
    assert (F : Forall (fun x => 0 <= x) ((3 * (PI / 2) + 2 * INR k * PI) :: r)) by (constructor; [nra|exact Fr]).
    split; [exact F|]. split; [exact (proj1 (a2_value _) F)|]. cbn [alpine_product]. rewrite sin_bottom.
    pose proof (Rle_abs (- M)) as A. rewrite Rabs_Ropp in A. pose proof (Rabs_pos M). nra.
  - destruct (far (Rabs M)) as [k Hk]. specialize (Hk (PI / 2) ltac:(lra)). pose proof (pos_INR k).
    exists ((PI / 2 + 2 * INR k * PI) :: r). eexists. split; [simpl; unfold r; now rewrite repeat_length|].
    assert (F : Forall (fun x => 0 <= x) ((PI / 2 + 2 * INR k * PI) :: r)) by (constructor; [nra|exact Fr]).
    split; [exact F|]. split; [exact (proj1 (a2_value _) F)|]. cbn [alpine_product]. rewrite sin_top.
    pose proof (Rle_abs M). pose proof (Rabs_pos M). nra.
Qed.

(** ** ridge *)
Lemma rsum_norm2 l : rsum (map sq l) = norm2 l.
Proof. induction l as [|x l IH]; [reflexivity|]. simpl. unfold sq at 1. now rewrite IH. Qed.
Lemma norm2_nonneg l : 0 <= norm2 l.
Proof. induction l as [|x l IH]; simpl; nra. Qed.
Lemma norm2_zero l : norm2 l = 0 <-> Forall (fun x => x = 0) l.
Proof.
  induction l as [|x l IH]; simpl; [split; [constructor|reflexivity]|]. pose proof (norm2_nonneg l). split.
  - intros H1. constructor; [nra|apply IH; nra].
  - intros H1. inversion H1; subst. assert (norm2 l = 0) by now apply IH. nra.
Qed.
Theorem ridge_value x l : ridge (x :: l) = Some (x + sqrt (norm2 l)) /\ ridge [] = None.
Proof. split; [|reflexivity]. simpl. rewrite rsum_norm2. f_equal. lra. Qed.
Theorem ridge_least x l v : ridge (x :: l) = Some v -> x <= v /\ (v = x <-> Forall (fun y => y = 0) l).
Proof.
  rewrite (proj1 (ridge_value x l)). intros H. injection H as <-. pose proof (sqrt_pos (norm2 l)). split; [lra|].
  rewrite <- norm2_zero. split; intros H1; [apply sqrt_eq_0; [apply norm2_nonneg|lra]|rewrite H1, sqrt_0; lra].
Qed.
Theorem ridge_none n M : (1 <= n)%nat -> exists z v, length z = n /\ ridge z = Some v /\ v < M.
Proof.
  intros Hn. destruct n as [|n]; [lia|]. exists ((M - 1) :: repeat 0 n). eexists. split; [simpl; now rewrite repeat_length|]. split; [apply ridge_value|].
  assert (norm2 (repeat 0 n) = 0) as -> by (apply norm2_zero; apply Forall_forall; intros y Hy; now apply repeat_spec in Hy). rewrite sqrt_0. lra.
Qed.
Lemma norm2_scale k l : norm2 (map (Rmult k) l) = k * k * norm2 l.
Proof. induction l as [|x l IH]; simpl; [lra|rewrite IH; lra]. Qed.
Theorem ridge_scale k l v : 0 <= k -> ridge l = Some v -> ridge (map (Rmult k) l) = Some (k * v).
Proof.
  intros Hk. destruct l as [|x l]; [discriminate|]. cbn [map]. rewrite !(proj1 (ridge_value _ _)). intros H. injection H as <-. f_equal.
  rewrite norm2_scale, sqrt_mult_alt by nra. rewrite sqrt_square by exact Hk. lra.
Qed.
