(** The largest value of x * sin (sqrt |x|) for |x| <= 500, to seven digits (for C80 and C82). *)
From Coq Require Import List Arith Reals Lia Lra Psatz.
From Verif Require Import BM_Model BM_Spec BM_Proofs BM_Final.
Import ListNotations.
Open Scope R_scope.

Lemma pi_bounds : 31415926535 / 10000000000 < PI < 31415926536 / 10000000000.
Proof. pose proof (PI_2_3_7_ineq 5) as (A & B). unfold sum_f_R0, tg_alt, PI_2_3_7_tg, Ratan_seq in A, B. cbn [Nat.mul Nat.add pow INR] in A, B. split; lra. Qed.

Lemma cos_up v : -2 <= v <= 2 -> cos v <= 1 - v ^ 2 / 2 + v ^ 4 / 24.
Proof. intros H. destruct (pre_cos_bound v 0) as (_ & A); try lra. unfold cos_approx, cos_term in A. cbn [sum_f_R0 Nat.mul Nat.add fact INR] in A. cbn in A. cbn. lra. Qed.
Lemma cos_lo v : -2 <= v <= 2 -> 1 - v ^ 2 / 2 <= cos v.
Proof. intros H. destruct (pre_cos_bound v 0) as (A & _); try lra. unfold cos_approx, cos_term in A. cbn in A. cbn. lra. Qed.
Lemma cos_lo6 v : -2 <= v <= 2 -> 1 - v ^ 2 / 2 + v ^ 4 / 24 - v ^ 6 / 720 <= cos v.
Proof. intros H. destruct (pre_cos_bound v 1) as (A & _); try lra. unfold cos_approx, cos_term in A. cbn in A. cbn. lra. Qed.
Lemma sin_lo v : 0 <= v <= 4 -> v - v ^ 3 / 6 <= sin v.
Proof. intros H. destruct (pre_sin_bound v 0) as (A & _); try lra. unfold sin_approx, sin_term in A. cbn in A. cbn. lra. Qed.
Lemma sin_up v : 0 <= v <= 4 -> sin v <= v - v ^ 3 / 6 + v ^ 5 / 120.
Proof. intros H. destruct (pre_sin_bound v 0) as (_ & A); try lra. unfold sin_approx, sin_term in A. cbn in A. cbn. lra. Qed.

(* sine around the maximum *)
Definition c0 : R := 205175229 / 10 ^ 7.
Definition v0 : R := c0 - 13 * PI / 2.
Lemma v0_range : 971706515 / 10 ^ 10 <= v0 <= 971706525 / 10 ^ 10.
Proof. pose proof pi_bounds. unfold v0, c0. lra. Qed.
Lemma pow_between a b v k : 0 <= a -> a <= v <= b -> a ^ k <= v ^ k <= b ^ k.
Proof. intros A B. split; apply pow_incr; lra. Qed.
Lemma cos_v0 : 9952826 / 10 ^ 7 <= cos v0 <= 99528265 / 10 ^ 8 /\ cos v0 <= 995282649 / 10 ^ 9.
Proof.
  pose proof v0_range as H. assert (H0 : 0 <= 971706515 / 10 ^ 10) by lra. pose proof (pow_between _ _ _ 2 H0 H). pose proof (pow_between _ _ _ 4 H0 H). pose proof (pow_between _ _ _ 6 H0 H).
  pose proof (cos_up v0 ltac:(lra)). pose proof (cos_lo6 v0 ltac:(lra)). split; [split|]; lra.
Qed.
Lemma sin_v0 : 9701770 / 10 ^ 8 <= sin v0 <= 9701785 / 10 ^ 8.
Proof.
  pose proof v0_range as H. assert (H0 : 0 <= 971706515 / 10 ^ 10) by lra. pose proof (pow_between _ _ _ 3 H0 H). pose proof (pow_between _ _ _ 5 H0 H).
  pose proof (sin_up v0 ltac:(lra)). pose proof (sin_lo v0 ltac:(lra)). split; lra.
Qed.
Lemma sin_13 v : sin (13 * PI / 2 + v) = cos v.
Proof. replace (13 * PI / 2 + v) with (PI / 2 + v + 2 * INR 3 * PI) by (cbn; field). rewrite sin_period. symmetry. apply cos_sin. Qed.
(** The tangent at c0 lies above the sine. *)
Lemma sin_tangent t : -2 <= t - c0 <= 2 -> sin t <= cos v0 - sin v0 * (t - c0).
Proof.
  intros H. set (d := t - c0) in *. replace t with (13 * PI / 2 + (v0 + d)) by (unfold d, v0; ring). rewrite sin_13, cos_plus. pose proof cos_v0 as (C & _). pose proof sin_v0 as Sn.
  pose proof (cos_up d H) as K1. assert (K2 : d - sin d <= d ^ 2 * (1 / 3)).
  { destruct (Rle_lt_dec 0 d) as [D|D].
    - pose proof (sin_lo d ltac:(lra)). assert (d ^ 3 / 6 <= d ^ 2 * (1 / 3)) by (replace (d ^ 3) with (d * d ^ 2) by ring; assert (0 <= d ^ 2) by nra; nra). lra.
    - pose proof (sin_lt_x (- d) ltac:(lra)) as L. rewrite sin_neg in L. assert (0 <= d ^ 2) by nra. lra. }
  assert (K3 : 1 - cos d >= d ^ 2 * (1 / 3)). { assert (U : 0 <= d ^ 2 <= 4) by nra. set (u := d ^ 2) in *. replace (d ^ 4) with (u * u) in K1 by (unfold u; ring). nra. }
  assert (U : 0 <= d ^ 2) by nra. set (u := d ^ 2) in *. nra.
Qed.
Definition top : R := 41898289 / 10 ^ 5.
Lemma cube_bound t : -2 <= t - c0 <= 2 -> t ^ 2 * (cos v0 - sin v0 * (t - c0)) <= top.
Proof.
  intros H. destruct cos_v0 as (C1 & C2). pose proof sin_v0 as Sn. set (d := t - c0) in *. replace t with (c0 + d) by (unfold d; ring).
  set (s := cos v0) in *. set (k := sin v0) in *.
  assert (E : top - (c0 + d) ^ 2 * (s - k * d) = (top - c0 ^ 2 * s) + (k * c0 ^ 2 - 2 * c0 * s) * d + d ^ 2 * (2 * c0 * k - s + k * d)) by ring.
  assert (A : 7 / 10 ^ 7 <= top - c0 ^ 2 * s) by (unfold top, c0; lra).
  assert (B : - (1 / 10 ^ 3) <= k * c0 ^ 2 - 2 * c0 * s <= 1 / 10 ^ 3) by (unfold c0; lra).
  assert (D : 2 <= 2 * c0 * k - s + k * d) by (unfold c0; nra).
  assert (U : 0 <= d ^ 2) by nra. set (q := 2 * c0 * k - s + k * d) in *. set (p := k * c0 ^ 2 - 2 * c0 * s) in *. set (r := top - c0 ^ 2 * s) in *.
  assert (F : 0 <= r + p * d + d ^ 2 * q); [|lra]. assert (2 * d ^ 2 <= d ^ 2 * q) by nra.
  assert (- (1 / 10 ^ 3) * Rabs d <= p * d). { destruct B as (B1 & B2). set (e := 1 / 10 ^ 3) in *. clearbody e p. unfold Rabs. destruct (Rcase_abs d); nra. }
  assert (E2 : d ^ 2 = Rabs d * Rabs d) by (rewrite <- pow2_abs; ring). pose proof (sq_nn (Rabs d - 1 / 4 / 10 ^ 3)) as K2. unfold sq in K2. rewrite E2 in *. set (a := Rabs d) in *. lra.
Qed.
Lemma sin_pos_t t : 6 * PI <= t <= 7 * PI -> 0 <= sin t.
Proof. intros H. replace t with (t - 6 * PI + 2 * INR 3 * PI) by (cbn; ring). rewrite sin_period. apply sin_ge_0; lra. Qed.
Lemma sin_neg_t t : 7 * PI <= t <= 224 / 10 -> - (1 / 2) <= sin t.
Proof.
  intros H. pose proof pi_bounds. replace t with ((t - 7 * PI) + PI + 2 * INR 3 * PI) by (cbn; ring). rewrite sin_period, neg_sin. set (w := t - 7 * PI) in *. assert (W : 0 <= w <= 1 / 2) by (unfold w; lra).
  destruct W as ([W|W] & W2); [pose proof (sin_lt_x w W); lra|]. rewrite <- W, sin_0. lra.
Qed.
Lemma bump t : 0 <= t -> t ^ 2 <= 500 -> - top <= t ^ 2 * sin t <= top.
Proof.
  intros T0 T1. assert (T2 : t <= 224 / 10) by nra. pose proof (SIN_bound t) as SB. assert (U : 0 <= t ^ 2) by nra. pose proof pi_bounds.
  destruct (Rle_lt_dec t (204 / 10)) as [L|L].
  { assert (t ^ 2 <= 41616 / 100) by nra. unfold top. nra. }
  split.
  - destruct (Rle_lt_dec t (7 * PI)) as [L2|L2].
    + pose proof (sin_pos_t t ltac:(lra)). unfold top. nra.
    + pose proof (sin_neg_t t ltac:(lra)). unfold top. nra.
  - assert (D : -2 <= t - c0 <= 2) by (unfold c0; lra). pose proof (sin_tangent t D). pose proof (cube_bound t D). nra.
Qed.
Lemma xsin_top x : Rabs x <= 500 -> x * sin (sqrt (Rabs x)) <= top.
Proof.
  intros H. pose proof (Rabs_pos x) as P. set (t := sqrt (Rabs x)). assert (E : t ^ 2 = Rabs x) by (unfold t; rewrite <- (sqrt_sqrt (Rabs x)) at 2 by auto; ring).
  destruct (bump t) as (A & B); [apply sqrt_pos|rewrite E; exact H|]. rewrite E in A, B. clearbody t. clear E. revert A B. unfold Rabs. destruct (Rcase_abs x); intros; lra.
Qed.

(* the listed point *)
Lemma sqrt_between a b x : 0 <= a -> 0 <= b -> a * a <= x <= b * b -> a <= sqrt x <= b.
Proof.
  intros A B (H1 & H2). split.
  - rewrite <- (sqrt_square a A). apply sqrt_le_1; nra.
  - rewrite <- (sqrt_square b B). apply sqrt_le_1; nra.
Qed.
Lemma xsin_near a : 42096874600 / 10 ^ 8 <= a <= 42096874700 / 10 ^ 8 -> 4189828 / 10 ^ 4 + 86 / 10 ^ 6 <= a * sin (sqrt (Rabs a)).
Proof.
  intros H. rewrite Rabs_right by lra. assert (R : 2051752290 / 10 ^ 8 <= sqrt a <= 2051752293 / 10 ^ 8) by (apply sqrt_between; lra). pose proof pi_bounds.
  replace (sqrt a) with (13 * PI / 2 + (sqrt a - 13 * PI / 2)) by ring. rewrite sin_13. set (v := sqrt a - 13 * PI / 2). assert (V : 97170651 / 10 ^ 9 <= v <= 97170683 / 10 ^ 9) by (unfold v; lra).
  assert (V0 : 0 <= 97170651 / 10 ^ 9) by lra. pose proof (pow_between _ _ _ 2 V0 V). pose proof (pow_between _ _ _ 4 V0 V). pose proof (pow_between _ _ _ 6 V0 V). pose proof (cos_lo6 v ltac:(lra)).
  assert (C : 9952826425 / 10 ^ 10 <= cos v) by lra. nra.
Qed.
Lemma schwefel_near n l : length l = n -> inside (bench_bounds Schwefel) l -> schwefel (repeat (42096874636 / 100000000) n) - INR n / 10 ^ 5 <= schwefel l.
Proof.
  intros L I. rewrite schwefel_rep. unfold schwefel. pose proof (xsin_near (42096874636 / 100000000) ltac:(lra)) as N. set (y := 42096874636 / 100000000 * sin (sqrt (Rabs (42096874636 / 100000000)))) in *.
  assert (H : rsum (map (fun x => x * sin (sqrt (Rabs x))) l) <= rsum (map (fun _ : R => top) l)).
  { apply rsum_le. intros a Ha. apply xsin_top. unfold inside in I. rewrite Forall_forall in I. specialize (I a Ha). cbn in I. apply Rabs_le. lra. }
  rewrite rsum_const, L in H. rewrite L. pose proof (pos_INR n). assert (INR n * (top - y) <= INR n * (1 / 10 ^ 5)) by (apply Rmult_le_compat_l; [auto|unfold top; lra]). lra.
Qed.
