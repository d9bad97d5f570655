(** The classic benchmark functions are bounded below by their values at the listed points (C80). *)
From Coq Require Import List Arith Reals Lia Lra Psatz.
From Verif Require Import BM_Model BM_Spec.
Import ListNotations.
Open Scope R_scope.

(* ---------- sums and products ---------- *)
Lemma rsum_nn {A} (g : A -> R) l : (forall a, In a l -> 0 <= g a) -> 0 <= rsum (map g l).
Proof. induction l as [|a l IH]; intros H; cbn; [lra|]. pose proof (H a (or_introl eq_refl)). assert (0 <= rsum (map g l)) by (apply IH; intros; apply H; right; auto). unfold rsum in *. lra. Qed.
Lemma rsum_0 {A} (g : A -> R) l : (forall a, In a l -> g a = 0) -> rsum (map g l) = 0.
Proof. induction l as [|a l IH]; intros H; cbn; [reflexivity|]. rewrite (H a (or_introl eq_refl)). assert (E : rsum (map g l) = 0) by (apply IH; intros; apply H; right; auto). unfold rsum in E. rewrite E. lra. Qed.
Lemma rsum_inv {A} (g : A -> R) l : (forall a, In a l -> 0 <= g a) -> rsum (map g l) <= 0 -> forall a, In a l -> g a = 0.
Proof.
  induction l as [|b l IH]; intros H E a Ha; [destruct Ha|]. cbn in E. assert (N : 0 <= rsum (map g l)) by (apply rsum_nn; intros; apply H; right; auto). pose proof (H b (or_introl eq_refl)). unfold rsum in N.
  destruct Ha as [<-|Ha]; [lra|]. apply IH; auto; [intros; apply H; right; auto|unfold rsum; lra].
Qed.
Lemma rsum_le {A} (g h : A -> R) l : (forall a, In a l -> g a <= h a) -> rsum (map g l) <= rsum (map h l).
Proof. induction l as [|a l IH]; intros H; cbn; [lra|]. pose proof (H a (or_introl eq_refl)). assert (rsum (map g l) <= rsum (map h l)) by (apply IH; intros; apply H; right; auto). unfold rsum in *. lra. Qed.
Lemma rsum_const {A} (k : R) (l : list A) : rsum (map (fun _ => k) l) = INR (length l) * k.
Proof. induction l as [|a l IH]; [cbn; lra|]. cbn [map length]. rewrite S_INR. cbn [rsum fold_right]. unfold rsum in IH. rewrite IH. lra. Qed.
Lemma rsum_plus {A} (g h : A -> R) l : rsum (map (fun a => g a + h a) l) = rsum (map g l) + rsum (map h l).
Proof. induction l as [|a l IH]; cbn; [lra|]. unfold rsum in IH. rewrite IH. lra. Qed.
Lemma rsum_scal {A} (k : R) (g : A -> R) l : rsum (map (fun a => k * g a) l) = k * rsum (map g l).
Proof. induction l as [|a l IH]; cbn; [lra|]. unfold rsum in IH. rewrite IH. lra. Qed.
Lemma rsum_ext {A} (g h : A -> R) l : (forall a, In a l -> g a = h a) -> rsum (map g l) = rsum (map h l).
Proof. intros H. f_equal. apply map_ext_in. exact H. Qed.
Lemma rsum_one l x : (forall a, In a l -> 0 <= a) -> In x l -> x <= rsum l.
Proof.
  induction l as [|b l IH]; intros H Hx; [destruct Hx|]. cbn. assert (N : 0 <= rsum l). { pose proof (rsum_nn (fun a => a) l) as K. rewrite map_id in K. apply K. intros; apply H; right; auto. }
  pose proof (H b (or_introl eq_refl)). unfold rsum in *. destruct Hx as [->|Hx]; [lra|]. assert (x <= fold_right Rplus 0 l) by (apply IH; auto; intros; apply H; right; auto). lra.
Qed.
Lemma rprod_abs {A} (g : A -> R) l : (forall a, In a l -> -1 <= g a <= 1) -> -1 <= rprod (map g l) <= 1.
Proof. induction l as [|a l IH]; intros H; cbn; [lra|]. pose proof (H a (or_introl eq_refl)). assert (-1 <= rprod (map g l) <= 1) by (apply IH; intros; apply H; right; auto). unfold rprod in *. nra. Qed.
Lemma rprod_01 {A} (g : A -> R) l : (forall a, In a l -> 0 <= g a <= 1) -> 0 <= rprod (map g l) <= 1.
Proof. induction l as [|a l IH]; intros H; cbn; [lra|]. pose proof (H a (or_introl eq_refl)). assert (0 <= rprod (map g l) <= 1) by (apply IH; intros; apply H; right; auto). unfold rprod in *. nra. Qed.
Lemma rprod_nn {A} (g : A -> R) l : (forall a, In a l -> 0 <= g a) -> 0 <= rprod (map g l).
Proof. induction l as [|a l IH]; intros H; cbn; [lra|]. pose proof (H a (or_introl eq_refl)). assert (0 <= rprod (map g l)) by (apply IH; intros; apply H; right; auto). unfold rprod in *. nra. Qed.
Lemma rprod_1 {A} (g : A -> R) l : (forall a, In a l -> g a = 1) -> rprod (map g l) = 1.
Proof. induction l as [|a l IH]; intros H; cbn; [reflexivity|]. rewrite (H a (or_introl eq_refl)). assert (E : rprod (map g l) = 1) by (apply IH; intros; apply H; right; auto). unfold rprod in E. rewrite E. lra. Qed.

Lemma sq_nn x : 0 <= sq x. Proof. unfold sq. nra. Qed.
Lemma sq_inv x : sq x = 0 -> x = 0. Proof. unfold sq. nra. Qed.
Lemma sq_sum l : 0 <= rsum (map sq l). Proof. apply rsum_nn. intros. apply sq_nn. Qed.
Lemma sq_sum_inv l : rsum (map sq l) <= 0 -> l = repeat 0 (length l).
Proof.
  intros H. assert (K : forall a, In a l -> a = 0). { intros a Ha. apply sq_inv. apply (rsum_inv sq l); auto. intros. apply sq_nn. }
  clear H. induction l as [|a l IH]; [reflexivity|]. cbn. f_equal; [apply K; left; auto|apply IH; intros; apply K; right; auto].
Qed.
Lemma all_repeat (k : R) l : (forall a, In a l -> a = k) -> l = repeat k (length l).
Proof. induction l as [|a l IH]; intros H; [reflexivity|]. cbn. f_equal; [apply H; left; auto|apply IH; intros; apply H; right; auto]. Qed.
Lemma in_repeat (k x : R) n : In x (repeat k n) -> x = k. Proof. intros H. apply repeat_spec in H. exact H. Qed.
Lemma repeat0_sq n : rsum (map sq (repeat 0 n)) = 0.
Proof. apply rsum_0. intros a H. apply in_repeat in H. subst. unfold sq. lra. Qed.

(* ---------- powers ---------- *)
Lemma rpow_nn b a : 0 <= rpow b a.
Proof. unfold rpow. destruct (Req_EM_T b 0); [destruct (Req_EM_T a 0); lra|]. unfold Rpower. left. apply exp_pos. Qed.
Lemma rpow_0 a : a <> 0 -> rpow 0 a = 0.
Proof. intros H. unfold rpow. destruct (Req_EM_T 0 0); [|congruence]. destruct (Req_EM_T a 0); congruence. Qed.
Lemma rpow_inv b a : rpow b a = 0 -> b = 0.
Proof. unfold rpow. destruct (Req_EM_T b 0); [auto|]. unfold Rpower. pose proof (exp_pos (a * ln b)). lra. Qed.
Lemma exp_le_1 x : x <= 0 -> exp x <= 1.
Proof. intros [H|H]; [left; rewrite <- exp_0; apply exp_increasing; auto|subst; rewrite exp_0; lra]. Qed.
Lemma exp_mono x y : x <= y -> exp x <= exp y.
Proof. intros [H|H]; [left; apply exp_increasing; auto|subst; lra]. Qed.
Lemma exp_ge_1 x : 1 <= exp x -> 0 <= x.
Proof. intros H. destruct (Rle_lt_dec 0 x) as [K|K]; auto. apply exp_increasing in K. rewrite exp_0 in K. lra. Qed.
Lemma cos_le1 x : cos x <= 1. Proof. apply COS_bound. Qed.
Lemma sin2_le1 x : 0 <= sq (sin x) <= 1. Proof. pose proof (SIN_bound x). unfold sq. nra. Qed.
Lemma cos2_le1 x : 0 <= sq (cos x) <= 1. Proof. pose proof (COS_bound x). unfold sq. nra. Qed.

(* ---------- pairs and enumerations ---------- *)
Lemma pairs_cons a b l : pairs (a :: b :: l) = (a, b) :: pairs (b :: l).
Proof. unfold pairs. cbn [tl]. change (removelast (a :: b :: l)) with (a :: removelast (b :: l)). reflexivity. Qed.
Lemma pairs_repeat (k : R) n p : In p (pairs (repeat k n)) -> p = (k, k).
Proof.
  destruct n as [|n]; [intros []|]. induction n as [|n IH]; [intros []|]. change (repeat k (S (S n))) with (k :: k :: repeat k n). rewrite pairs_cons. intros [<-|H]; [reflexivity|]. apply IH. exact H.
Qed.
Lemma pairs_cover l a : (2 <= length l)%nat -> In a l -> exists p, In p (pairs l) /\ (fst p = a \/ snd p = a).
Proof.
  revert a. induction l as [|b l IH]; intros a L H; [destruct H|]. destruct l as [|c l]; [cbn in L; lia|]. rewrite pairs_cons. destruct H as [->|[->|H]].
  - exists (a, c). split; [left; auto|left; auto].
  - exists (b, a). split; [left; auto|right; auto].
  - destruct l as [|d l]; [destruct H|]. destruct (IH a) as (p & P1 & P2); [cbn; lia|right; exact H|]. exists p. split; [right; exact P1|exact P2].
Qed.
Lemma enum_in k l i x : In (i, x) (enum k l) -> In x l /\ (k <= i < k + length l)%nat /\ nth_error l (i - k) = Some x.
Proof.
  unfold enum. revert k. induction l as [|a l IH]; intros k H; [destruct H|]. cbn [length seq combine] in H. destruct H as [E|H].
  - injection E as <- <-. split; [left; auto|]. split; [cbn; lia|]. rewrite Nat.sub_diag. reflexivity.
  - destruct (IH (S k) H) as (A & B & C). split; [right; auto|]. split; [cbn; lia|]. replace (i - k)%nat with (S (i - S k)) by lia. exact C.
Qed.
Lemma enum_cover k l x : In x l -> exists i, In (i, x) (enum k l).
Proof. unfold enum. revert k. induction l as [|a l IH]; intros k H; [destruct H|]. cbn [length seq combine]. destruct H as [->|H]; [exists k; left; auto|]. destruct (IH (S k) H) as (i & Hi). exists i. right. exact Hi. Qed.
Lemma enum_map k l (g : R -> R) : rsum (map (fun ix => g (snd ix)) (enum k l)) = rsum (map g l).
Proof. unfold enum. revert k. induction l as [|a l IH]; intros k; [reflexivity|]. cbn [length seq combine map snd]. cbn. specialize (IH (S k)). unfold rsum in IH. rewrite IH. reflexivity. Qed.

(* ---------- the functions ---------- *)
Lemma sphere_nn l : 0 <= sphere l. Proof. apply sq_sum. Qed.
Lemma sphere_0 n : sphere (repeat 0 n) = 0. Proof. apply repeat0_sq. Qed.
Lemma sphere_inv l : sphere l <= 0 -> l = repeat 0 (length l). Proof. apply sq_sum_inv. Qed.

Lemma cigar_some l : l <> [] -> exists v, cigar l = Some v /\ 0 <= v /\ (v = 0 -> l = repeat 0 (length l)).
Proof.
  destruct l as [|x l]; [congruence|]. intros _. cbn [cigar]. eexists. split; [reflexivity|]. pose proof (sq_nn x). pose proof (sq_sum (x :: l)). change (fun g : R => g * g) with sq. split; [lra|]. intros E. apply sq_sum_inv. lra.
Qed.
Lemma cigar_0 n : n <> 0%nat -> cigar (repeat 0 n) = Some 0.
Proof. destruct n as [|n]; [congruence|]. intros _. cbn [repeat cigar]. change (0 :: repeat 0 n) with (repeat 0 (S n)). change (fun g : R => g * g) with sq. rewrite repeat0_sq. f_equal. unfold sq. lra. Qed.

Lemma rosen_term p : 0 <= 100 * sq (fst p * fst p - snd p) + sq (1 - fst p).
Proof. pose proof (sq_nn (fst p * fst p - snd p)). pose proof (sq_nn (1 - fst p)). lra. Qed.
Lemma rosenbrock_nn l : 0 <= rosenbrock l. Proof. apply rsum_nn. intros. apply rosen_term. Qed.
Lemma rosenbrock_1 n : rosenbrock (repeat 1 n) = 0.
Proof. apply rsum_0. intros p H. apply pairs_repeat in H. subst. cbn. unfold sq. lra. Qed.
Lemma rosenbrock_inv l : (2 <= length l)%nat -> rosenbrock l <= 0 -> l = repeat 1 (length l).
Proof.
  intros L H. apply all_repeat. intros a Ha. destruct (pairs_cover l a L Ha) as (p & P1 & P2).
  pose proof (rsum_inv (fun p => 100 * sq (fst p * fst p - snd p) + sq (1 - fst p)) (pairs l) (fun a _ => rosen_term a) H p P1) as E. cbn beta in E.
  pose proof (sq_nn (fst p * fst p - snd p)). pose proof (sq_nn (1 - fst p)). assert (E1 : 1 - fst p = 0) by (apply sq_inv; lra). assert (E2 : fst p * fst p - snd p = 0) by (apply sq_inv; lra).
  assert (fst p = 1) by lra. destruct P2 as [<-|<-]; [auto|]. nra.
Qed.

Lemma ackley_some l : l <> [] -> exists v, ackley l = Some v /\ 0 <= v /\ (v = 0 -> l = repeat 0 (length l)).
Proof.
  intros Hl. unfold ackley. destruct l as [|x l]; [congruence|]. eexists. split; [reflexivity|]. set (k := x :: l). set (n := INR (length k)).
  assert (Hn : 0 < n). { unfold n, k. cbn [length]. rewrite S_INR. pose proof (pos_INR (length l)). lra. }
  assert (Hi : 0 < 1 / n) by (apply Rdiv_lt_0_compat; lra).
  pose proof (sq_sum k) as Hs. set (s := rsum (map sq k)) in *.
  assert (Hc : rsum (map (fun x => cos (2 * PI * x)) k) <= n).
  { replace n with (rsum (map (fun _ : R => 1) k)) by (rewrite rsum_const; unfold n; lra). apply rsum_le. intros. apply cos_le1. }
  set (c := rsum (map (fun x => cos (2 * PI * x)) k)) in *.
  assert (H1 : exp (1 / n * c) <= exp 1). { apply exp_mono. apply Rmult_le_reg_l with n; auto. replace (n * (1 / n * c)) with c by (field; lra). lra. }
  pose proof (sqrt_pos (1 / n * s)) as Hr. assert (H2 : exp (- (2 / 10) * sqrt (1 / n * s)) <= 1) by (apply exp_le_1; lra).
  split; [lra|]. intros E. assert (H3 : exp (- (2 / 10) * sqrt (1 / n * s)) = 1) by lra. assert (H4 : 0 <= - (2 / 10) * sqrt (1 / n * s)) by (apply exp_ge_1; lra).
  assert (H5 : sqrt (1 / n * s) = 0) by lra. apply sqrt_eq_0 in H5; [|apply Rmult_le_pos; lra]. apply (sq_sum_inv k). fold s. assert (s = 0) by (apply (Rmult_eq_reg_l (1 / n)); lra). lra.
Qed.
Lemma ackley_0 n : n <> 0%nat -> ackley (repeat 0 n) = Some 0.
Proof.
  intros Hn. unfold ackley. destruct (repeat 0 n) as [|x l] eqn:E; [destruct n; [congruence|discriminate]|]. rewrite <- E. rewrite repeat0_sq.
  assert (Hp : 0 < INR (length (repeat 0 n))). { rewrite repeat_length. apply lt_0_INR. lia. }
  replace (rsum (map (fun x => cos (2 * PI * x)) (repeat 0 n))) with (INR (length (repeat 0 n))).
  2:{ symmetry. rewrite (rsum_ext _ (fun _ => 1)); [rewrite rsum_const; lra|]. intros a Ha. apply in_repeat in Ha. subst. rewrite Rmult_0_r. apply cos_0. }
  f_equal. rewrite Rmult_0_r, sqrt_0, Rmult_0_r, exp_0. replace (1 / INR (length (repeat 0 n)) * INR (length (repeat 0 n))) with 1 by (field; lra). lra.
Qed.

Lemma boh_term p : 0 <= sq (fst p) + 2 * sq (snd p) - 3 / 10 * cos (3 * PI * fst p) - 4 / 10 * cos (4 * PI * snd p) + 7 / 10.
Proof. pose proof (sq_nn (fst p)). pose proof (sq_nn (snd p)). pose proof (cos_le1 (3 * PI * fst p)). pose proof (cos_le1 (4 * PI * snd p)). lra. Qed.
Lemma bohachevsky_nn l : 0 <= bohachevsky l. Proof. apply rsum_nn. intros. apply boh_term. Qed.
Lemma bohachevsky_0 n : bohachevsky (repeat 0 n) = 0.
Proof. apply rsum_0. intros p H. apply pairs_repeat in H. subst. cbn. rewrite !Rmult_0_r, cos_0. unfold sq. lra. Qed.
Lemma bohachevsky_inv l : (2 <= length l)%nat -> bohachevsky l <= 0 -> l = repeat 0 (length l).
Proof.
  intros L H. apply all_repeat. intros a Ha. destruct (pairs_cover l a L Ha) as (p & P1 & P2).
  pose proof (rsum_inv _ (pairs l) (fun a _ => boh_term a) H p P1) as E. cbn beta in E.
  pose proof (sq_nn (fst p)). pose proof (sq_nn (snd p)). pose proof (cos_le1 (3 * PI * fst p)). pose proof (cos_le1 (4 * PI * snd p)).
  destruct P2 as [<-|<-]; apply sq_inv; lra.
Qed.

Lemma griewank_prod l : -1 <= rprod (map (fun ix => cos (snd ix / sqrt (INR (fst ix) + 1))) (enum 0 l)) <= 1.
Proof. apply rprod_abs. intros. apply COS_bound. Qed.
Lemma griewank_nn l : 0 <= griewank l. Proof. unfold griewank. pose proof (griewank_prod l). pose proof (sq_sum l). lra. Qed.
Lemma griewank_0 n : griewank (repeat 0 n) = 0.
Proof.
  unfold griewank. rewrite repeat0_sq, rprod_1; [lra|]. intros [i x] H. apply enum_in in H. destruct H as (H & _). apply in_repeat in H. subst. cbn. unfold Rdiv. rewrite Rmult_0_l. apply cos_0.
Qed.
Lemma griewank_inv l : griewank l <= 0 -> l = repeat 0 (length l).
Proof. unfold griewank. pose proof (griewank_prod l). intros H1. apply sq_sum_inv. lra. Qed.

Lemma rast_sum {A} (g : A -> R) l : 10 * INR (length l) + rsum (map (fun a => sq (g a) - 10 * cos (2 * PI * g a)) l) = rsum (map (fun a => sq (g a) + 10 * (1 - cos (2 * PI * g a))) l).
Proof.
  replace (10 * INR (length l)) with (rsum (map (fun _ : A => 10) l)) by (rewrite rsum_const; lra). rewrite <- rsum_plus. apply rsum_ext. intros. lra.
Qed.
Lemma rast_term x : 0 <= sq x + 10 * (1 - cos (2 * PI * x)). Proof. pose proof (sq_nn x). pose proof (cos_le1 (2 * PI * x)). lra. Qed.
Lemma rast_inv x : sq x + 10 * (1 - cos (2 * PI * x)) = 0 -> x = 0. Proof. pose proof (sq_nn x). pose proof (cos_le1 (2 * PI * x)). intros. apply sq_inv. lra. Qed.
Lemma rast_0 : sq 0 + 10 * (1 - cos (2 * PI * 0)) = 0. Proof. rewrite Rmult_0_r, cos_0. unfold sq. lra. Qed.
Lemma rastrigin_eq l : rastrigin l = rsum (map (fun a => sq a + 10 * (1 - cos (2 * PI * a))) l). Proof. unfold rastrigin. exact (rast_sum (fun a => a) l). Qed.
Lemma rastrigin_nn l : 0 <= rastrigin l. Proof. rewrite rastrigin_eq. apply rsum_nn. intros. apply rast_term. Qed.
Lemma rastrigin_0 n : rastrigin (repeat 0 n) = 0. Proof. rewrite rastrigin_eq. apply rsum_0. intros a H. apply in_repeat in H. subst. apply rast_0. Qed.
Lemma rastrigin_inv l : rastrigin l <= 0 -> l = repeat 0 (length l).
Proof. rewrite rastrigin_eq. intros H. apply all_repeat. intros a Ha. apply rast_inv. exact (rsum_inv _ _ (fun a _ => rast_term a) H a Ha). Qed.

Lemma skewed_inv x : skewed x = 0 -> x = 0. Proof. unfold skewed. destruct (Rlt_dec 0 x); lra. Qed.
Lemma skewed_0 : skewed 0 = 0. Proof. unfold skewed. destruct (Rlt_dec 0 0); lra. Qed.
Lemma skew_eq l : rastrigin_skew l = rsum (map (fun a => sq (skewed a) + 10 * (1 - cos (2 * PI * skewed a))) l). Proof. unfold rastrigin_skew. exact (rast_sum skewed l). Qed.
Lemma skew_nn l : 0 <= rastrigin_skew l. Proof. rewrite skew_eq. apply rsum_nn. intros. apply rast_term. Qed.
Lemma skew_0 n : rastrigin_skew (repeat 0 n) = 0. Proof. rewrite skew_eq. apply rsum_0. intros a H. apply in_repeat in H. subst. rewrite skewed_0. apply rast_0. Qed.
Lemma skew_inv l : rastrigin_skew l <= 0 -> l = repeat 0 (length l).
Proof. rewrite skew_eq. intros H. apply all_repeat. intros a Ha. apply skewed_inv, rast_inv. exact (rsum_inv _ _ (fun a _ => rast_term (skewed a)) H a Ha). Qed.

Lemma scaled_eq l : (length l <> 1)%nat -> exists s, (forall i, 0 < s i) /\ rastrigin_scaled l = Some (rsum (map (fun ix : nat * R => sq (s (fst ix) * snd ix) + 10 * (1 - cos (2 * PI * (s (fst ix) * snd ix)))) (enum 0 l))).
Proof.
  intros H. exists (fun i => Rpower 10 (INR i / (INR (length l) - 1))). split; [intros; apply exp_pos|]. unfold rastrigin_scaled. destruct (Nat.eqb_spec (length l) 1); [congruence|]. f_equal.
  assert (E : length (enum 0 l) = length l) by (unfold enum; rewrite combine_length, seq_length; lia).
  rewrite <- (rast_sum (fun ix => Rpower 10 (INR (fst ix) / (INR (length l) - 1)) * snd ix)). rewrite E. f_equal. apply rsum_ext. intros a _. rewrite Rmult_assoc. reflexivity.
Qed.
Lemma scaled_some l : (length l <> 1)%nat -> exists v, rastrigin_scaled l = Some v /\ 0 <= v /\ (v = 0 -> l = repeat 0 (length l)).
Proof.
  intros H. destruct (scaled_eq l H) as (s & S1 & ->). eexists. split; [reflexivity|]. split; [apply rsum_nn; intros; apply rast_term|].
  intros E. apply all_repeat. intros a Ha. destruct (enum_cover 0 l a Ha) as (i & Hi). pose proof (rsum_inv _ _ (fun ix _ => rast_term (s (fst ix) * snd ix)) (Req_le _ _ E) _ Hi) as K. apply rast_inv in K. cbn in K. specialize (S1 i). nra.
Qed.
Lemma scaled_0 n : (n <> 1)%nat -> rastrigin_scaled (repeat 0 n) = Some 0.
Proof.
  intros H. destruct (scaled_eq (repeat 0 n)) as (s & S1 & ->); [rewrite repeat_length; auto|]. f_equal. apply rsum_0. intros [i x] Hi. apply enum_in in Hi. destruct Hi as (Hi & _). apply in_repeat in Hi. subst. cbn [fst snd]. rewrite Rmult_0_r. apply rast_0.
Qed.

Lemma schaffer_term p : 0 <= rpow (sq (fst p) + sq (snd p)) (25 / 100) * (sq (sin (50 * rpow (sq (fst p) + sq (snd p)) (1 / 10))) + 1).
Proof. apply Rmult_le_pos; [apply rpow_nn|]. pose proof (sq_nn (sin (50 * rpow (sq (fst p) + sq (snd p)) (1 / 10)))). lra. Qed.
Lemma schaffer_nn l : 0 <= schaffer l. Proof. apply rsum_nn. intros. apply schaffer_term. Qed.
Lemma schaffer_0 n : schaffer (repeat 0 n) = 0.
Proof. apply rsum_0. intros p H. apply pairs_repeat in H. subst. cbn [fst snd]. replace (sq 0 + sq 0) with 0 by (unfold sq; lra). rewrite (rpow_0 (25 / 100)) by lra. lra. Qed.
Lemma schaffer_inv l : (2 <= length l)%nat -> schaffer l <= 0 -> l = repeat 0 (length l).
Proof.
  intros L H. apply all_repeat. intros a Ha. destruct (pairs_cover l a L Ha) as (p & P1 & P2).
  pose proof (rsum_inv _ (pairs l) (fun a _ => schaffer_term a) H p P1) as E. cbn beta in E. apply Rmult_integral in E. pose proof (sq_nn (sin (50 * rpow (sq (fst p) + sq (snd p)) (1 / 10)))).
  destruct E as [E|E]; [|lra]. apply rpow_inv in E. pose proof (sq_nn (fst p)). pose proof (sq_nn (snd p)). destruct P2 as [<-|<-]; apply sq_inv; lra.
Qed.

Lemma schwefel2_nn l : 0 <= schwefel2 l.
Proof. unfold schwefel2. assert (0 <= rsum (map Rabs l)) by (apply rsum_nn; intros; apply Rabs_pos). assert (0 <= rprod (map Rabs l)) by (apply rprod_nn; intros; apply Rabs_pos). lra. Qed.
Lemma schwefel2_0 n : n <> 0%nat -> schwefel2 (repeat 0 n) = 0.
Proof.
  intros Hn. unfold schwefel2. rewrite rsum_0 by (intros a H; apply in_repeat in H; subst; apply Rabs_R0). destruct n as [|n]; [congruence|]. cbn. rewrite Rabs_R0. lra.
Qed.
Lemma abs_sum_inv l : rsum (map Rabs l) <= 0 -> l = repeat 0 (length l).
Proof. intros H. apply all_repeat. intros a Ha. pose proof (rsum_inv Rabs l (fun a _ => Rabs_pos a) H a Ha) as E. destruct (Req_dec a 0) as [|K]; auto. apply Rabs_no_R0 in K. congruence. Qed.
Lemma schwefel2_inv l : schwefel2 l <= 0 -> l = repeat 0 (length l).
Proof. unfold schwefel2. assert (0 <= rprod (map Rabs l)) by (apply rprod_nn; intros; apply Rabs_pos). intros. apply abs_sum_inv. lra. Qed.

Lemma brown_term p : 0 <= rpow (fst p) (snd p + 1) + rpow (snd p) (fst p + 1).
Proof. pose proof (rpow_nn (fst p) (snd p + 1)). pose proof (rpow_nn (snd p) (fst p + 1)). lra. Qed.
Lemma brown_nn l : 0 <= brown l. Proof. apply rsum_nn. intros. apply brown_term. Qed.
Lemma map_repeat {A B} (f : A -> B) a n : map f (repeat a n) = repeat (f a) n. Proof. induction n; cbn; congruence. Qed.
Lemma brown_0 n : brown (repeat 0 n) = 0.
Proof. unfold brown. rewrite map_repeat. replace (sq 0) with 0 by (unfold sq; lra). apply rsum_0. intros p H. apply pairs_repeat in H. subst. cbn [fst snd]. rewrite !rpow_0 by lra. lra. Qed.
Lemma brown_inv l : (2 <= length l)%nat -> brown l <= 0 -> l = repeat 0 (length l).
Proof.
  intros L H. apply all_repeat. intros a Ha. apply sq_inv. destruct (pairs_cover (map sq l) (sq a)) as (p & P1 & P2); [rewrite map_length; auto|apply in_map; auto|].
  pose proof (rsum_inv _ _ (fun a _ => brown_term a) H p P1) as E. cbn beta in E. pose proof (rpow_nn (fst p) (snd p + 1)). pose proof (rpow_nn (snd p) (fst p + 1)).
  destruct P2 as [<-|<-]; eapply rpow_inv; [apply (Rle_antisym _ 0)|apply (Rle_antisym _ 0)]; [| eauto | | eauto]; lra.
Qed.

Lemma expo_nn l : -1 <= expo l. Proof. unfold expo. pose proof (sq_sum l). assert (exp (- (5 / 10) * rsum (map sq l)) <= 1) by (apply exp_le_1; lra). lra. Qed.
Lemma expo_0 n : expo (repeat 0 n) = -1. Proof. unfold expo. rewrite repeat0_sq, Rmult_0_r, exp_0. lra. Qed.
Lemma expo_inv l : expo l <= -1 -> l = repeat 0 (length l).
Proof. unfold expo. intros H. apply sq_sum_inv. assert (0 <= - (5 / 10) * rsum (map sq l)) by (apply exp_ge_1; lra). lra. Qed.

Lemma yang_nn rnd l : random01 rnd -> 0 <= yang rnd l.
Proof. intros R. apply rsum_nn. intros [i x] _. cbn [fst snd]. apply Rmult_le_pos; [apply R|]. apply pow_le, Rabs_pos. Qed.
Lemma yang_0 rnd n : yang rnd (repeat 0 n) = 0.
Proof. apply rsum_0. intros [i x] H. apply enum_in in H. destruct H as (H & I & _). apply in_repeat in H. subst. cbn [fst snd]. rewrite Rabs_R0, pow_i by lia. lra. Qed.

Lemma yang2_nn l : 0 <= yang2 l. Proof. unfold yang2. apply Rmult_le_pos; [apply rsum_nn; intros; apply Rabs_pos|left; apply exp_pos]. Qed.
Lemma yang2_0 n : yang2 (repeat 0 n) = 0. Proof. unfold yang2. rewrite rsum_0; [lra|]. intros a H. apply in_repeat in H. subst. apply Rabs_R0. Qed.
Lemma yang2_inv l : yang2 l <= 0 -> l = repeat 0 (length l).
Proof. unfold yang2. intros H. apply abs_sum_inv. pose proof (exp_pos (- rsum (map (fun x => sin (sq x)) l))). nra. Qed.

Lemma pow10_nn x : 0 <= (x / 15) ^ 10. Proof. replace ((x / 15) ^ 10) with (sq ((x / 15) ^ 5)) by (unfold sq; ring). apply sq_nn. Qed.
Lemma pow10_le x : -15 <= x <= 15 -> (x / 15) ^ 10 <= sq x.
Proof.
  intros H. set (t := x / 15). assert (T : -1 <= t <= 1) by (unfold t; lra). assert (0 <= t * t <= 1) by nra. set (u := t * t) in *.
  replace (t ^ 10) with (u * (u * u) * (u * u)) by (unfold u; ring). assert (U2 : 0 <= u * u <= u) by nra. assert (0 <= u * (u * u) <= u) by nra. assert (u * (u * u) * (u * u) <= u) by nra.
  assert (u <= sq x). { unfold u, t, sq. nra. } lra.
Qed.
Lemma exp_half : 2 * exp (-225) <= 1.
Proof. assert (H : exp (-225) * exp 225 = 1) by (rewrite <- exp_plus; replace (-225 + 225) with 0 by lra; apply exp_0). pose proof (exp_ineq1 225 ltac:(lra)). pose proof (exp_pos (-225)). nra. Qed.
Lemma yang3_key l : 2 * exp (- rsum (map sq l)) <= 1 + exp (- rsum (map (fun x => (x / 15) ^ 10) l)) /\ (2 * exp (- rsum (map sq l)) = 1 + exp (- rsum (map (fun x => (x / 15) ^ 10) l)) -> rsum (map sq l) <= 0).
Proof.
  pose proof (sq_sum l) as Hs. pose proof (exp_pos (- rsum (map (fun x => (x / 15) ^ 10) l))) as He.
  destruct (Forall_Exists_dec (fun x => -15 <= x <= 15) (fun x => match Rle_dec (-15) x, Rle_dec x 15 with left a, left b => left (conj a b) | right a, _ => right (fun h => a (proj1 h)) | _, right b => right (fun h => b (proj2 h)) end) l) as [F|F].
  - rewrite Forall_forall in F. assert (K : rsum (map (fun x => (x / 15) ^ 10) l) <= rsum (map sq l)) by (apply rsum_le; intros a Ha; apply pow10_le; auto).
    assert (exp (- rsum (map sq l)) <= exp (- rsum (map (fun x => (x / 15) ^ 10) l))) by (apply exp_mono; lra). assert (exp (- rsum (map sq l)) <= 1) by (apply exp_le_1; lra). split; [lra|].
    intros E. assert (1 <= exp (- rsum (map sq l))) by lra. apply exp_ge_1 in H1. lra.
  - apply Exists_exists in F. destruct F as (a & Ha & Hn). assert (225 <= rsum (map sq l)).
    { apply Rle_trans with (sq a); [|apply rsum_one; [intros b Hb; apply in_map_iff in Hb; destruct Hb as (c & <- & _); apply sq_nn|apply in_map; exact Ha]]. unfold sq. destruct (Rlt_le_dec a (-15)); [nra|]. destruct (Rlt_le_dec 15 a); [nra|]. exfalso. apply Hn. lra. }
    assert (exp (- rsum (map sq l)) <= exp (-225)) by (apply exp_mono; lra). pose proof exp_half. split; [lra|]. intros. lra.
Qed.
Lemma yang3_prod l : 0 <= rprod (map (fun x => sq (cos x)) l) <= 1. Proof. apply rprod_01. intros. apply cos2_le1. Qed.
Lemma yang3_nn l : -1 <= yang3 l.
Proof. unfold yang3. destruct (yang3_key l) as (K & _). pose proof (yang3_prod l). pose proof (exp_pos (- rsum (map sq l))). nra. Qed.
Lemma yang3_0 n : yang3 (repeat 0 n) = -1.
Proof.
  unfold yang3. rewrite repeat0_sq. rewrite rsum_0 by (intros a H; apply in_repeat in H; subst; unfold Rdiv; rewrite Rmult_0_l; ring). rewrite rprod_1 by (intros a H; apply in_repeat in H; subst; rewrite cos_0; unfold sq; ring).
  rewrite Ropp_0, exp_0. lra.
Qed.
Lemma yang3_inv l : yang3 l <= -1 -> l = repeat 0 (length l).
Proof.
  unfold yang3. intros H. destruct (yang3_key l) as (K1 & K2). pose proof (yang3_prod l). pose proof (exp_pos (- rsum (map sq l))). apply sq_sum_inv. apply K2. nra.
Qed.

Lemma yang4_nn l : -1 <= yang4 l.
Proof.
  unfold yang4. pose proof (sq_sum l). assert (0 <= rsum (map (fun x => sq (sin x)) l)) by (apply rsum_nn; intros; apply sq_nn). assert (exp (- rsum (map sq l)) <= 1) by (apply exp_le_1; lra).
  assert (exp (- rsum (map (fun x => sq (sin (sqrt (Rabs x)))) l)) <= 1). { apply exp_le_1. assert (0 <= rsum (map (fun x => sq (sin (sqrt (Rabs x)))) l)) by (apply rsum_nn; intros; apply sq_nn). lra. }
  pose proof (exp_pos (- rsum (map (fun x => sq (sin (sqrt (Rabs x)))) l))). nra.
Qed.
Lemma yang4_0 n : yang4 (repeat 0 n) = -1.
Proof.
  unfold yang4. rewrite repeat0_sq. rewrite (rsum_0 (fun x => sq (sin x))) by (intros a H; apply in_repeat in H; subst; rewrite sin_0; unfold sq; ring).
  rewrite (rsum_0 (fun x => sq (sin (sqrt (Rabs x))))) by (intros a H; apply in_repeat in H; subst; rewrite Rabs_R0, sqrt_0, sin_0; unfold sq; ring). rewrite Ropp_0, exp_0. lra.
Qed.
Lemma yang4_inv l : yang4 l <= -1 -> l = repeat 0 (length l).
Proof.
  unfold yang4. intros H. pose proof (sq_sum l). assert (0 <= rsum (map (fun x => sq (sin x)) l)) by (apply rsum_nn; intros; apply sq_nn). assert (exp (- rsum (map sq l)) <= 1) by (apply exp_le_1; lra).
  assert (exp (- rsum (map (fun x => sq (sin (sqrt (Rabs x)))) l)) <= 1). { apply exp_le_1. assert (0 <= rsum (map (fun x => sq (sin (sqrt (Rabs x)))) l)) by (apply rsum_nn; intros; apply sq_nn). lra. }
  pose proof (exp_pos (- rsum (map (fun x => sq (sin (sqrt (Rabs x)))) l))). apply sq_sum_inv. assert (1 <= exp (- rsum (map sq l))) by nra. apply exp_ge_1 in H5. lra.
Qed.

Lemma pow4_nn x : 0 <= x ^ 4. Proof. replace (x ^ 4) with (sq (x * x)) by (unfold sq; ring). apply sq_nn. Qed.
Lemma pow2_nn x : 0 <= x ^ 2. Proof. replace (x ^ 2) with (sq x) by (unfold sq; ring). apply sq_nn. Qed.
Lemma zakharov_nn l : 0 <= zakharov l. Proof. unfold zakharov. pose proof (sq_sum l). match goal with |- context [?s ^ 4] => pose proof (pow4_nn s); pose proof (pow2_nn s) end. lra. Qed.
Lemma zakharov_0 n : zakharov (repeat 0 n) = 0.
Proof.
  unfold zakharov. rewrite repeat0_sq. rewrite rsum_0; [ring|]. intros [i x] H. apply enum_in in H. destruct H as (H & _). apply in_repeat in H. subst. cbn. ring.
Qed.
Lemma zakharov_inv l : zakharov l <= 0 -> l = repeat 0 (length l).
Proof. unfold zakharov. match goal with |- context [?s ^ 4] => pose proof (pow4_nn s); pose proof (pow2_nn s) end. intros. apply sq_sum_inv. lra. Qed.

Lemma salomon_nn l : 0 <= salomon l. Proof. unfold salomon. pose proof (sqrt_pos (rsum (map sq l))). pose proof (cos_le1 (2 * PI * sqrt (rsum (map sq l)))). lra. Qed.
Lemma salomon_0 n : salomon (repeat 0 n) = 0. Proof. unfold salomon. rewrite repeat0_sq, sqrt_0, Rmult_0_r, cos_0. lra. Qed.
Lemma salomon_inv l : salomon l <= 0 -> l = repeat 0 (length l).
Proof. unfold salomon. pose proof (sqrt_pos (rsum (map sq l))). pose proof (cos_le1 (2 * PI * sqrt (rsum (map sq l)))). intros. apply sq_sum_inv. assert (E : sqrt (rsum (map sq l)) = 0) by lra. apply sqrt_eq_0 in E; [lra|apply sq_sum]. Qed.

Lemma powell_nn l : 0 <= powell l. Proof. apply rsum_nn. intros. apply pow_le, Rabs_pos. Qed.
Lemma powell_0 n : powell (repeat 0 n) = 0.
Proof. apply rsum_0. intros [i x] H. apply enum_in in H. destruct H as (H & _). apply in_repeat in H. subst. cbn [fst snd]. rewrite Rabs_R0. apply pow_i. lia. Qed.
Lemma powell_inv l : powell l <= 0 -> l = repeat 0 (length l).
Proof.
  intros H. apply all_repeat. intros a Ha. destruct (enum_cover 1 l a Ha) as (i & Hi). pose proof (rsum_inv _ _ (fun (ix : nat * R) _ => pow_le (Rabs (snd ix)) (fst ix + 1) (Rabs_pos _)) H _ Hi) as E. cbn [fst snd] in E.
  destruct (Req_dec a 0) as [|K]; auto. apply Rabs_no_R0 in K. apply (pow_nonzero _ (i + 1)) in K. congruence.
Qed.

Lemma qing_nn l : 0 <= qing l. Proof. apply rsum_nn. intros. apply sq_nn. Qed.
Lemma qing_at (s : nat -> R) n : (forall i, sq (s i) = INR i) -> qing (map s (seq 1 n)) = 0.
Proof.
  intros Hs. apply rsum_0. intros [i x] H. apply enum_in in H. destruct H as (_ & I & E). cbn [fst snd]. rewrite map_length, seq_length in I. rewrite nth_error_map in E.
  rewrite (nth_error_nth' (seq 1 n) 0%nat) in E by (rewrite seq_length; lia). rewrite seq_nth in E by lia. cbn [option_map] in E. replace (1 + (i - 1))%nat with i in E by lia. injection E as <-. rewrite Hs. unfold sq. ring.
Qed.

Lemma happycat_some l : l <> [] -> exists v, happycat l = Some v /\ 0 <= v /\ (v = 0 -> l = repeat (-1) (length l)).
Proof.
  intros Hl. unfold happycat. destruct l as [|x l]; [congruence|]. eexists. split; [reflexivity|]. set (k := x :: l). set (n := INR (length k)).
  assert (Hn : 0 < n). { unfold n, k. cbn [length]. rewrite S_INR. pose proof (pos_INR (length l)). lra. }
  assert (E : 1 / n * (5 / 10 * rsum (map sq k) + rsum k) + 5 / 10 = 1 / (2 * n) * rsum (map (fun x => sq (x + 1)) k)).
  { assert (K : rsum (map (fun x => sq (x + 1)) k) = rsum (map sq k) + 2 * rsum k + n).
    { unfold n. rewrite <- (Rmult_1_r (INR (length k))), <- (rsum_const 1 k), <- (map_id k) at 1. replace (2 * rsum k) with (rsum (map (fun x => 2 * x) k)) by (rewrite (rsum_scal 2 (fun x => x)), map_id; ring).
      rewrite <- rsum_plus, <- rsum_plus. rewrite map_id. apply rsum_ext. intros. unfold sq. ring. }
    rewrite K. field. lra. }
  rewrite Rplus_assoc, E. pose proof (rpow_nn (sq (rsum (map sq k) - n)) (1 / 8)). assert (S : 0 <= rsum (map (fun x => sq (x + 1)) k)) by (apply rsum_nn; intros; apply sq_nn).
  assert (I : 0 < 1 / (2 * n)) by (apply Rdiv_lt_0_compat; lra). assert (0 <= 1 / (2 * n) * rsum (map (fun x => sq (x + 1)) k)) by (apply Rmult_le_pos; lra). split; [lra|].
  intros Z. apply all_repeat. intros a Ha. assert (Z1 : 1 / (2 * n) * rsum (map (fun x => sq (x + 1)) k) = 0) by lra. apply Rmult_integral in Z1. destruct Z1 as [Z1|Z1]; [lra|].
  pose proof (rsum_inv _ _ (fun x _ => sq_nn (x + 1)) (Req_le _ _ Z1) a Ha) as Z2. apply sq_inv in Z2. lra.
Qed.
Lemma happycat_m1 n : n <> 0%nat -> happycat (repeat (-1) n) = Some 0.
Proof.
  intros Hn. unfold happycat. destruct (repeat (-1) n) as [|x l] eqn:E; [destruct n; [congruence|discriminate]|]. rewrite <- E. rewrite repeat_length.
  assert (Hp : 0 < INR n) by (apply lt_0_INR; lia).
  assert (E1 : rsum (map sq (repeat (-1) n)) = INR n). { rewrite (rsum_ext _ (fun _ => 1)); [rewrite rsum_const, repeat_length; lra|]. intros a Ha. apply in_repeat in Ha. subst. unfold sq. lra. }
  assert (E2 : rsum (repeat (-1) n) = - INR n). { rewrite <- (map_id (repeat (-1) n)). rewrite (rsum_ext _ (fun _ => -1)); [rewrite rsum_const, repeat_length; lra|]. intros a Ha. apply in_repeat in Ha. auto. }
  rewrite E1, E2. f_equal. replace (INR n - INR n) with 0 by lra. replace (sq 0) with 0 by (unfold sq; lra). rewrite rpow_0 by lra. field. lra.
Qed.

Lemma dixon_some l : l <> [] -> exists v, dixonprice l = Some v /\ 0 <= v.
Proof.
  destruct l as [|x l]; [congruence|]. intros _. cbn [dixonprice]. eexists. split; [reflexivity|]. match goal with |- context [rsum (map ?g ?q)] => assert (0 <= rsum (map g q)) end.
  { apply rsum_nn. intros [i p] _. cbn [fst snd]. apply Rmult_le_pos; [pose proof (pos_INR i); lra|apply sq_nn]. }
  pose proof (sq_nn (x - 1)). lra.
Qed.
Definition dp_point (i : nat) : R := Rpower 2 (- ((2 ^ i - 2) / 2 ^ i)).
Lemma dp_1 : dp_point 1 = 1. Proof. unfold dp_point. replace (- ((2 ^ 1 - 2) / 2 ^ 1)) with 0 by field. apply Rpower_O. lra. Qed.
Lemma dp_next i : 2 * sq (dp_point (S i)) = dp_point i.
Proof.
  unfold dp_point, sq. rewrite <- Rpower_plus. rewrite <- (Rpower_1 2) at 1 by lra. rewrite <- Rpower_plus. f_equal. assert (0 < 2 ^ i) by (apply pow_lt; lra). cbn [pow]. field. lra.
Qed.
Lemma pairs_seq (s : nat -> R) n : forall k p, In p (pairs (map s (seq k n))) -> exists i, p = (s i, s (S i)).
Proof.
  destruct n as [|n]; [intros k p []|]. induction n as [|n IH]; intros k p H; [destruct H|]. cbn [seq map] in H. rewrite pairs_cons in H. destruct H as [<-|H]; [exists k; reflexivity|]. apply (IH (S k) p). exact H.
Qed.
Lemma dixon_at n : n <> 0%nat -> dixonprice (map dp_point (seq 1 n)) = Some 0.
Proof.
  destruct n as [|n]; [congruence|]. intros _. cbn [seq map dixonprice]. change (dp_point 1 :: map dp_point (seq 2 n)) with (map dp_point (seq 1 (S n))). f_equal. rewrite rsum_0.
  - rewrite dp_1. unfold sq. lra.
  - intros [i p] H. apply in_combine_r in H. apply pairs_seq in H. destruct H as (j & ->). cbn [fst snd]. rewrite dp_next. unfold sq. ring.
Qed.

Lemma removelast_in {A} (l : list A) a : In a (removelast l) -> In a l.
Proof. induction l as [|b l IH]; [intros []|]. cbn. destruct l; [intros []|]. intros [<-|H]; [left; auto|right; apply IH; exact H]. Qed.
Lemma last_in (l : list R) d : l <> [] -> In (last l d) l.
Proof. intros H. rewrite (app_removelast_last d H) at 2. apply in_app_iff. right. left. reflexivity. Qed.
Lemma split_last (l : list R) d a : In a l -> In a (removelast l) \/ a = last l d.
Proof. intros H. destruct l as [|b l]; [destruct H|]. rewrite (app_removelast_last d) in H by discriminate. apply in_app_iff in H. destruct H as [H|[<-|[]]]; auto. Qed.
Lemma levy_term1 w : 0 <= sq (w - 1) * (1 + 10 * sq (sin (PI * w + 1))). Proof. apply Rmult_le_pos; [apply sq_nn|]. pose proof (sq_nn (sin (PI * w + 1))). lra. Qed.
Lemma levy_term2 w : 0 <= sq (w - 1) * (1 + sq (sin (2 * PI * w))). Proof. apply Rmult_le_pos; [apply sq_nn|]. pose proof (sq_nn (sin (2 * PI * w))). lra. Qed.
Lemma levy_some l : l <> [] -> exists v, levy l = Some v /\ 0 <= v /\ (v = 0 -> l = repeat 1 (length l)).
Proof.
  intros Hl. unfold levy. set (w := map (fun x => 1 + (x - 1) / 4) l). assert (Hw : w <> []) by (unfold w; destruct l; [congruence|discriminate]). destruct w as [|w0 w'] eqn:E; [congruence|]. rewrite <- E in *.
  eexists. split; [reflexivity|]. assert (S : 0 <= rsum (map (fun wi => sq (wi - 1) * (1 + 10 * sq (sin (PI * wi + 1)))) (removelast w))) by (apply rsum_nn; intros; apply levy_term1).
  pose proof (levy_term2 (last w 0)). pose proof (sq_nn (sin (PI * w0))). split; [lra|]. intros Z. apply all_repeat. intros a Ha. assert (Hi : In (1 + (a - 1) / 4) w) by (unfold w; apply in_map_iff; eauto).
  assert (K : 1 + (a - 1) / 4 = 1); [|lra]. apply (split_last w 0) in Hi. destruct Hi as [Hi|Hi].
  - assert (Z1 : rsum (map (fun wi => sq (wi - 1) * (1 + 10 * sq (sin (PI * wi + 1)))) (removelast w)) <= 0) by lra. pose proof (rsum_inv _ _ (fun w _ => levy_term1 w) Z1 _ Hi) as Z2. cbn beta in Z2.
    apply Rmult_integral in Z2. destruct Z2 as [Z2|Z2]; [apply sq_inv in Z2; lra|]. match type of Z2 with context [sq ?t] => pose proof (sq_nn t) end. lra.
  - rewrite Hi. assert (Z2 : sq (last w 0 - 1) * (1 + sq (sin (2 * PI * last w 0))) = 0) by lra. apply Rmult_integral in Z2. destruct Z2 as [Z2|Z2]; [apply sq_inv in Z2; lra|]. match type of Z2 with context [sq ?t] => pose proof (sq_nn t) end. lra.
Qed.
Lemma last_repeat (k d : R) n : n <> 0%nat -> last (repeat k n) d = k.
Proof. intros Hn. apply in_repeat with n. apply last_in. destruct n; [congruence|discriminate]. Qed.
Lemma levy_1 n : n <> 0%nat -> levy (repeat 1 n) = Some 0.
Proof.
  intros Hn. unfold levy. rewrite map_repeat. replace (1 + (1 - 1) / 4) with 1 by field. destruct (repeat 1 n) as [|w0 w'] eqn:E; [destruct n; [congruence|discriminate]|]. rewrite <- E.
  assert (w0 = 1) by (apply (in_repeat 1 w0 n); rewrite E; left; reflexivity). subst w0. rewrite last_repeat by auto. rewrite Rmult_1_r, sin_PI. rewrite rsum_0.
  - f_equal. unfold sq. ring.
  - intros a Ha. apply removelast_in, in_repeat in Ha. subst. unfold sq. ring.
Qed.
