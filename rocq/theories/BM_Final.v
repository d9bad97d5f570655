(** The table of minima of the classic benchmark functions (C80). *)
From Coq Require Import List Arith Reals Lia Lra Psatz.
From Verif Require Import BM_Model BM_Spec BM_Proofs.
Import ListNotations.
Open Scope R_scope.

Lemma bench_low b rnd l : exact_entry b = true -> (least_dim b <= length l)%nat -> random01 rnd ->
  exists v, bench_fun rnd b l = Some v /\ least_value b <= v.
Proof.
  intros He Hd Hr. assert (Hl : l <> []) by (intros ->; destruct b; cbn in Hd; lia).
  destruct b; try discriminate; cbn [bench_fun least_value least_dim] in *; try (eexists; split; [reflexivity|]);
    auto using sphere_nn, rosenbrock_nn, bohachevsky_nn, griewank_nn, rastrigin_nn, skew_nn, schaffer_nn, schwefel2_nn, brown_nn, expo_nn, yang_nn, yang2_nn, yang3_nn, yang4_nn, zakharov_nn, salomon_nn, powell_nn, qing_nn.
  - destruct (cigar_some l Hl) as (v & A & B & _); eauto.
  - destruct (ackley_some l Hl) as (v & A & B & _); eauto.
  - destruct (scaled_some l ltac:(lia)) as (v & A & B & _); eauto.
  - destruct (happycat_some l Hl) as (v & A & B & _); eauto.
  - destruct (dixon_some l Hl) as (v & A & B); eauto.
  - destruct (levy_some l Hl) as (v & A & B & _); eauto.
Qed.

Lemma bench_at b rnd n x : exact_entry b = true -> (least_dim b <= n)%nat -> In x (bench_minima b n) ->
  length x = n /\ bench_fun rnd b x = Some (least_value b).
Proof.
  intros He Hd Hx. assert (Hn : n <> 0%nat) by (destruct b; cbn in Hd; lia).
  destruct b; try discriminate; cbn [bench_fun least_value least_dim bench_minima] in *;
    try (destruct Hx as [<-|[]]; split; [first [apply repeat_length|rewrite map_length; apply seq_length]|];
         first [f_equal; solve [auto using sphere_0, rosenbrock_1, bohachevsky_0, griewank_0, rastrigin_0, skew_0, schaffer_0, schwefel2_0, brown_0, expo_0, yang_0, yang2_0, yang3_0, yang4_0, zakharov_0, salomon_0, powell_0]
               | solve [auto using cigar_0, ackley_0, happycat_m1, levy_1, dixon_at]]).
  - destruct Hx as [<-|[]]. split; [apply repeat_length|apply scaled_0; lia].
  - destruct Hx as [<-|[<-|[]]]; (split; [rewrite map_length; apply seq_length|]); f_equal; apply (qing_at _ n).
    + intros i. unfold sq. apply sqrt_sqrt, pos_INR.
    + intros i. unfold sq. rewrite Rmult_opp_opp. apply sqrt_sqrt, pos_INR.
Qed.

Lemma bench_minimum b n x : exact_entry b = true -> (least_dim b <= n)%nat -> In x (bench_minima b n) ->
  length x = n /\ minimum_at (fun rnd => bench_fun rnd b) x.
Proof.
  intros He Hd Hx. split; [apply (bench_at b (fun _ => 0) n x He Hd Hx)|]. intros rnd rnd' z R1 R2 L. destruct (bench_at b rnd n x He Hd Hx) as (Lx & Ex).
  destruct (bench_low b rnd' z He) as (v & V1 & V2); [congruence|exact R2|]. exists (least_value b), v. auto.
Qed.

Lemma bench_unique b rnd l : single_minimum b = true -> (single_dim b <= length l)%nat -> bench_fun rnd b l = Some (least_value b) ->
  In l (bench_minima b (length l)).
Proof.
  intros He Hd E. assert (Hl : l <> []) by (intros ->; destruct b; cbn in Hd; lia).
  assert (G : forall k, l = repeat k (length l) -> In l [repeat k (length l)]) by (intros k H; left; auto).
  destruct b; try discriminate; cbn [bench_fun least_value single_dim bench_minima] in *; apply G;
    try (injection E as E; apply Req_le in E; solve [auto using sphere_inv, rosenbrock_inv, bohachevsky_inv, griewank_inv, rastrigin_inv, skew_inv, schaffer_inv, schwefel2_inv, brown_inv, expo_inv, yang2_inv, yang3_inv, yang4_inv, zakharov_inv, salomon_inv, powell_inv]).
  - destruct (cigar_some l Hl) as (v & A & _ & B). rewrite A in E. injection E as E. auto.
  - destruct (ackley_some l Hl) as (v & A & _ & B). rewrite A in E. injection E as E. auto.
  - destruct (scaled_some l ltac:(lia)) as (v & A & _ & B). rewrite A in E. injection E as E. auto.
  - destruct (happycat_some l Hl) as (v & A & _ & B). rewrite A in E. injection E as E. auto.
  - destruct (levy_some l Hl) as (v & A & _ & B). rewrite A in E. injection E as E. auto.
Qed.

Lemma inside_repeat bd k n : fst bd <= k <= snd bd -> inside bd (repeat k n).
Proof. intros H. apply Forall_forall. intros a Ha. apply in_repeat in Ha. subst. exact H. Qed.
Lemma sqrt_500 i : (i <= 500 * 500)%nat -> 0 <= sqrt (INR i) <= 500.
Proof.
  intros H. split; [apply sqrt_pos|]. replace 500 with (sqrt (500 * 500)) by (apply sqrt_square; lra). apply sqrt_le_1; [apply pos_INR|lra|]. apply Rle_trans with (INR (500 * 500)); [apply le_INR; auto|]. rewrite mult_INR. replace (INR 500) with 500 by (rewrite INR_IZR_INZ; reflexivity). lra.
Qed.
Lemma dp_range i : (1 <= i)%nat -> 0 <= dp_point i <= 1.
Proof.
  intros H. unfold dp_point. split; [left; apply exp_pos|]. unfold Rpower. apply exp_le_1. assert (0 < ln 2) by (rewrite <- ln_1; apply ln_increasing; lra).
  assert (2 <= 2 ^ i). { destruct i as [|i]; [lia|]. cbn. assert (1 <= 2 ^ i) by (apply pow_R1_Rle; lra). lra. }
  assert (0 <= (2 ^ i - 2) / 2 ^ i). { apply Rmult_le_pos; [lra|left; apply Rinv_0_lt_compat; lra]. } nra.
Qed.
Lemma bench_inside b n x : b <> Quartic -> (b = Qing -> (n <= 500 * 500)%nat) -> In x (bench_minima b n) -> inside (bench_bounds b) x.
Proof.
  intros Hq Hn Hx. pose proof PI_RGT_0. destruct b; try congruence; cbn [bench_minima bench_bounds] in *; try (destruct Hx as [<-|[]]; apply inside_repeat; cbn; lra).
  - destruct Hx as [<-|[]]. repeat constructor; cbn; lra.
  - specialize (Hn eq_refl). destruct Hx as [<-|[<-|[]]]; apply Forall_forall; intros a Ha; apply in_map_iff in Ha; destruct Ha as (i & <- & Hi); apply in_seq in Hi; pose proof (sqrt_500 i ltac:(lia)); cbn; lra.
  - destruct Hx as [<-|[]]. apply Forall_forall; intros a Ha; apply in_map_iff in Ha; destruct Ha as (i & <- & Hi); apply in_seq in Hi; pose proof (dp_range i ltac:(lia)) as K. unfold dp_point in K. cbn [fst snd]. lra.
Qed.

(* one coordinate *)
Lemma bench_flat b rnd x : In b [Rosenbrock; Bohachevsky; Schaffer; Brown] -> bench_fun rnd b [x] = Some 0.
Proof. intros H. repeat destruct H as [<-|H]; [reflexivity..|destruct H]. Qed.

(* Quartic *)
Lemma quartic_sum_nn l : 0 <= rsum (map (fun ix : nat * R => INR (fst ix) * (snd ix) ^ 4) (enum 1 l)).
Proof. apply rsum_nn. intros ix _. apply Rmult_le_pos; [apply pos_INR|apply pow4_nn]. Qed.
Lemma quartic_sum_0 n : rsum (map (fun ix : nat * R => INR (fst ix) * (snd ix) ^ 4) (enum 1 (repeat 0 n))) = 0.
Proof. apply rsum_0. intros [i x] H. apply enum_in in H. destruct H as (H & _). apply in_repeat in H. subst. cbn [fst snd]. ring. Qed.
Lemma quartic_listed n x rnd rnd' : (1 <= n)%nat -> random01 rnd -> random01 rnd' -> In x (bench_minima Quartic n) -> quartic rnd' (repeat 0 n) < quartic rnd x.
Proof.
  intros Hn R1 R2 Hx. assert (H1 : 1 <= rsum (map (fun ix : nat * R => INR (fst ix) * (snd ix) ^ 4) (enum 1 x))).
  { assert (K : exists k, x = repeat k n /\ 1 <= k ^ 4) by (destruct Hx as [<-|[<-|[]]]; eexists; (split; [reflexivity|lra])). destruct K as (k & -> & Hk). destruct n as [|n]; [lia|].
    unfold enum. cbn [repeat length seq combine map fst snd]. cbn [rsum fold_right].
    assert (N : 0 <= rsum (map (fun ix : nat * R => INR (fst ix) * (snd ix) ^ 4) (combine (seq 2 (length (repeat k n))) (repeat k n)))) by (apply rsum_nn; intros ix _; apply Rmult_le_pos; [apply pos_INR|apply pow4_nn]).
    unfold rsum in N. cbn [INR]. lra. }
  unfold quartic. rewrite quartic_sum_0. pose proof (R1 0%nat). pose proof (R2 0%nat). lra.
Qed.
Lemma quartic_true n rnd z : quartic rnd (repeat 0 n) <= quartic rnd z.
Proof. unfold quartic. rewrite quartic_sum_0. pose proof (quartic_sum_nn z). lra. Qed.

(* St *)
Definition stp (x : R) : R := x ^ 4 - 16 * x ^ 2 + 5 * x.
Lemma stp_low x : stp (- (2903534 / 1000000)) - 2 / 10 ^ 12 <= stp x.
Proof.
  set (c := - (2903534 / 1000000)). set (d := x - c). unfold stp.
  replace (x ^ 4 - 16 * x ^ 2 + 5 * x) with (c ^ 4 - 16 * c ^ 2 + 5 * c + (4 * c ^ 3 - 32 * c + 5) * d + d ^ 2 * (sq (x + c) + (2 * c ^ 2 - 16))) by (unfold d, sq; ring).
  assert (Hq : 86 / 100 <= 2 * c ^ 2 - 16) by (unfold c; lra). assert (Hp : - (2 / 10 ^ 6) <= 4 * c ^ 3 - 32 * c + 5 <= 2 / 10 ^ 6) by (unfold c; lra).
  pose proof (sq_nn (x + c)). pose proof (pow2_nn d). set (q := sq (x + c) + (2 * c ^ 2 - 16)) in *. assert (86 / 100 <= q) by (unfold q; lra). set (p := 4 * c ^ 3 - 32 * c + 5) in *.
  assert (86 / 100 * d ^ 2 <= d ^ 2 * q) by nra. assert (K : - (2 / 10 ^ 12) <= p * d + 86 / 100 * d ^ 2); [|lra].
  assert (Hd : - (2 / 10 ^ 6) * Rabs d <= p * d). { destruct Hp as (Hp1 & Hp2). set (e := 2 / 10 ^ 6) in *. clearbody e p. unfold Rabs. destruct (Rcase_abs d); nra. }
  assert (E : d ^ 2 = Rabs d * Rabs d) by (rewrite <- pow2_abs; ring). rewrite E. pose proof (sq_nn (Rabs d - 1 / 10 ^ 6 / (86 / 100))) as K2. unfold sq in K2. set (a := Rabs d) in *. lra.
Qed.
Lemma st_eq l : st l = 5 / 10 * rsum (map stp l). Proof. reflexivity. Qed.
Lemma st_near n l : length l = n -> st (repeat (- (2903534 / 1000000)) n) - INR n / 10 ^ 12 <= st l.
Proof.
  intros L. rewrite !st_eq. rewrite (rsum_ext stp (fun _ => stp (- (2903534 / 1000000))) (repeat (- (2903534 / 1000000)) n)) by (intros a Ha; apply in_repeat in Ha; subst; reflexivity). rewrite rsum_const, repeat_length.
  assert (H : rsum (map (fun _ : R => stp (- (2903534 / 1000000)) - 2 / 10 ^ 12) l) <= rsum (map stp l)) by (apply rsum_le; intros; apply stp_low). rewrite rsum_const, L in H. lra.
Qed.
Lemma st_better n : (1 <= n)%nat -> st (repeat (- (290353403 / 100000000)) n) < st (repeat (- (2903534 / 1000000)) n).
Proof.
  intros Hn. assert (E : forall k, st (repeat k n) = 5 / 10 * (INR n * stp k)). { intros k. rewrite st_eq. rewrite (rsum_ext stp (fun _ => stp k)) by (intros a Ha; apply in_repeat in Ha; subst; reflexivity). rewrite rsum_const, repeat_length. reflexivity. }
  rewrite !E. assert (0 < INR n) by (apply lt_0_INR; lia). assert (stp (- (290353403 / 100000000)) < stp (- (2903534 / 1000000))) by (unfold stp; lra). nra.
Qed.

(* Schwefel is unbounded below outside its box *)
Lemma schwefel_rep k n : schwefel (repeat k n) = INR n * (4189828872724339 / 10000000000000 - k * sin (sqrt (Rabs k))).
Proof. unfold schwefel. rewrite (rsum_ext _ (fun _ => k * sin (sqrt (Rabs k)))) by (intros a Ha; apply in_repeat in Ha; subst; reflexivity). rewrite rsum_const, repeat_length. ring. Qed.
Lemma sin_peak k : sin (2 * INR k * PI + PI / 2) = 1.
Proof. rewrite Rplus_comm, sin_period. apply sin_PI2. Qed.
Lemma INR_above x : 0 <= x -> exists k, x < INR k.
Proof. intros H. destruct (archimed x) as (A & _). exists (Z.to_nat (up x)). rewrite INR_IZR_INZ, Z2Nat.id; [lra|]. apply le_IZR. lra. Qed.
Lemma schwefel_outside n M : (1 <= n)%nat -> exists z, length z = n /\ schwefel z < M.
Proof.
  intros Hn. assert (Hp : 1 <= INR n) by (apply (le_INR 1); auto). destruct (INR_above (Rabs M + 420)) as (k & Hk); [pose proof (Rabs_pos M); lra|].
  exists (repeat (sq (2 * INR k * PI + PI / 2)) n). split; [apply repeat_length|]. rewrite schwefel_rep. assert (1 <= INR k). { pose proof (Rabs_pos M). lra. } pose proof PI2_1 as HP.
  rewrite (Rabs_right (sq _)) by (apply Rle_ge, sq_nn). assert (K : 2 * INR k <= 2 * INR k * PI + PI / 2) by nra.
  replace (sqrt (sq (2 * INR k * PI + PI / 2))) with (2 * INR k * PI + PI / 2) by (symmetry; apply sqrt_square; lra). rewrite sin_peak, Rmult_1_r.
  assert (INR k <= sq (2 * INR k * PI + PI / 2)) by (unfold sq; nra). set (x := sq (2 * INR k * PI + PI / 2)) in *. pose proof (Rle_abs (- M)) as HM. rewrite Rabs_Ropp in HM. 
  assert (4189828872724339 / 10000000000000 - x < - Rabs M) by lra. assert (INR n * (4189828872724339 / 10000000000000 - x) <= 1 * (4189828872724339 / 10000000000000 - x)) by (pose proof (Rabs_pos M); nra). lra.
Qed.
