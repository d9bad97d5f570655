(** The basic CEC functions are bounded below by zero, and zero at the origin (C81, C82). *)
From Coq Require Import List Bool Arith Reals Lia Lra Psatz.
From Verif Require Import BM_Model BM_Spec BM_Proofs BM_Final BM_Schwefel CE_Model CE_Spec.
Import ListNotations.
Open Scope R_scope.

Lemma obind_Some {A B} (o : option A) (f : A -> option B) b : obind o f = Some b -> exists a, o = Some a /\ f a = Some b.
Proof. destruct o as [a|]; [exists a; auto|discriminate]. Qed.

Lemma some_inj {A} (a b : A) : Some a = Some b -> a = b. Proof. congruence. Qed.

(* ---------- vectors ---------- *)
Lemma vsub_len x s d : vsub x s = Some d -> length d = length x /\ length s = length x.
Proof. unfold vsub. destruct (Nat.eqb_spec (length x) (length s)) as [E|E]; [|discriminate]. intros H. injection H as <-. rewrite map_length, combine_length. lia. Qed.
Lemma vsub_some x s : length x = length s -> exists d, vsub x s = Some d /\ length d = length x.
Proof. intros E. unfold vsub. rewrite E, Nat.eqb_refl. eexists. split; [reflexivity|]. rewrite map_length, combine_length. lia. Qed.
Lemma vsub_self x : vsub x x = Some (repeat 0 (length x)).
Proof. unfold vsub. rewrite Nat.eqb_refl. f_equal. induction x as [|a x IH]; [reflexivity|]. cbn. f_equal; [lra|exact IH]. Qed.
Lemma vsub_zero x s d : vsub x s = Some d -> rsum (map sq d) = 0 -> x = s.
Proof.
  unfold vsub. destruct (Nat.eqb_spec (length x) (length s)) as [E|E]; [|discriminate]. intros H Z. injection H as <-. assert (Q : forall a, In a (map (fun p : R * R => fst p - snd p) (combine x s)) -> a = 0).
  { intros a Ha. apply sq_inv. assert (K : sq a = 0) by (apply (rsum_inv sq (map (fun p : R * R => fst p - snd p) (combine x s))); auto; [intros; apply sq_nn|lra]). lra. }
  clear Z. revert s E Q. induction x as [|a x IH]; intros [|b s] E Q; cbn in *; try discriminate; [reflexivity|]. f_equal; [specialize (Q (a - b) (or_introl eq_refl)); lra|]. apply IH; [lia|]. intros c Hc. apply Q. right. exact Hc.
Qed.
Lemma matvec_len m v z : matvec m v = Some z -> length z = length v.
Proof. unfold matvec. destruct (Nat.eqb_spec (length m) (length v)) as [E|E]; [|discriminate]. destruct (forallb _ m); [|discriminate]. intros H. injection H as <-. rewrite map_length. exact E. Qed.
Lemma matvec_some m v n : square n m -> length v = n -> exists z, matvec m v = Some z /\ length z = n.
Proof.
  intros (A & B) L. unfold matvec. rewrite L, A, Nat.eqb_refl. replace (forallb (fun r => (length r =? n)%nat) m) with true; [eexists; split; [reflexivity|rewrite map_length; exact A]|].
  symmetry. apply forallb_forall. rewrite Forall_forall in B. intros r Hr. apply Nat.eqb_eq. auto.
Qed.
Lemma dot_zero r n : rsum (map (fun p : R * R => fst p * snd p) (combine r (repeat 0 n))) = 0.
Proof. apply rsum_0. intros [a b] H. apply in_combine_r in H. apply in_repeat in H. subst. cbn. lra. Qed.
Lemma matvec_zero m n : square n m -> matvec m (repeat 0 n) = Some (repeat 0 n).
Proof.
  intros Sq. destruct (matvec_some m (repeat 0 n) n Sq (repeat_length 0 n)) as (z & E & L). rewrite E. f_equal. rewrite <- L. apply all_repeat. unfold matvec in E. destruct (_ && _); [|discriminate]. injection E as <-. intros a Ha. apply in_map_iff in Ha. destruct Ha as (r & <- & _). apply dot_zero.
Qed.
Lemma rotated_len m s x z : rotated m s x = Some z -> length z = length x.
Proof. intros H. apply obind_Some in H. destruct H as (d & A & B). apply vsub_len in A. apply matvec_len in B. lia. Qed.
Lemma rotated_some m s x n : square n m -> length s = n -> length x = n -> exists z, rotated m s x = Some z /\ length z = n.
Proof. intros Sq L1 L2. destruct (vsub_some x s) as (d & A & B); [congruence|]. unfold rotated. rewrite A. cbn. apply matvec_some; auto. congruence. Qed.
Lemma rotated_self m s n : square n m -> length s = n -> rotated m s s = Some (repeat 0 n).
Proof. intros Sq L. unfold rotated. rewrite vsub_self, L. cbn. apply matvec_zero. exact Sq. Qed.
Lemma vscale_zero k n : vscale k (repeat 0 n) = repeat 0 n.
Proof. unfold vscale. rewrite map_repeat. f_equal. lra. Qed.

(* ---------- the three properties of a basic function ---------- *)
Definition nonneg (f : list R -> option R) : Prop := forall x v, f x = Some v -> 0 <= v.
Definition total_at (f : list R -> option R) (n : nat) : Prop := forall x, length x = n -> exists v, f x = Some v.
Definition zero_at (f : list R -> option R) (n : nat) : Prop := f (repeat 0 n) = Some 0.

Lemma sq_tail a t : 0 <= a * a + 10000000 * rsum (map sq t). Proof. pose proof (sq_sum t). nra. Qed.
Lemma bent_cigar_nn : nonneg bent_cigar.
Proof. intros [|a t] v H; [discriminate|]. apply some_inj in H; subst v. apply sq_tail. Qed.
Lemma bent_cigar_tot n : n <> 0%nat -> total_at bent_cigar n. Proof. intros N [|a t] L; [cbn in L; congruence|]. cbn. eauto. Qed.
Lemma bent_cigar_0 n : n <> 0%nat -> zero_at bent_cigar n. Proof. intros N. destruct n; [congruence|]. unfold zero_at. cbn [repeat bent_cigar]. rewrite repeat0_sq. f_equal. lra. Qed.
Lemma discus_nn : nonneg discus. Proof. intros [|a t] v H; [discriminate|]. apply some_inj in H; subst v. pose proof (sq_sum t). nra. Qed.
Lemma discus_tot n : n <> 0%nat -> total_at discus n. Proof. intros N [|a t] L; [cbn in L; congruence|]. cbn. eauto. Qed.
Lemma discus_0 n : n <> 0%nat -> zero_at discus n. Proof. intros N. destruct n; [congruence|]. unfold zero_at. cbn [repeat discus]. rewrite repeat0_sq. f_equal. lra. Qed.

Lemma sdp_nn : nonneg sum_diff_pow. Proof. intros x v H. apply some_inj in H; subst v. apply rsum_nn. intros. apply pow_le, Rabs_pos. Qed.
Lemma sdp_tot n : total_at sum_diff_pow n. Proof. intros x _. eexists. reflexivity. Qed.
Lemma sdp_0 n : zero_at sum_diff_pow n.
Proof. unfold zero_at, sum_diff_pow. f_equal. apply rsum_0. intros [i x] H. apply enum_in in H. destruct H as (H & _). apply in_repeat in H. subst. cbn [fst snd]. rewrite Rabs_R0. apply pow_i. lia. Qed.

Lemma bzak_nn : nonneg b_zakharov. Proof. intros x v H. apply some_inj in H; subst v. pose proof (sq_sum x). match goal with |- 0 <= _ + ?s * ?s + _ => pose proof (sq_nn s); pose proof (sq_nn (s * s)) end. unfold sq at 1 in H0. unfold sq at 1 in H1. lra. Qed.
Lemma bzak_tot n : total_at b_zakharov n. Proof. intros x _. eexists. reflexivity. Qed.
Lemma bzak_0 n : zero_at b_zakharov n.
Proof. unfold zero_at, b_zakharov. f_equal. rewrite repeat0_sq, rsum_0; [lra|]. intros [i x] H. apply enum_in in H. destruct H as (H & _). apply in_repeat in H. subst. cbn. lra. Qed.

Lemma bros_nn : nonneg b_rosenbrock. Proof. intros x v H. apply some_inj in H; subst v. apply rsum_nn. intros p _. pose proof (sq_nn (fst p * fst p - snd p)). pose proof (sq_nn (fst p - 1)). lra. Qed.
Lemma bros_tot n : total_at b_rosenbrock n. Proof. intros x _. eexists. reflexivity. Qed.
Lemma bros_0 n : zero_at b_rosenbrock n.
Proof. unfold zero_at, b_rosenbrock. f_equal. rewrite map_repeat. replace (2048 / 100000 * 0 + 1) with 1 by lra. apply rsum_0. intros p H. apply pairs_repeat in H. subst. cbn. unfold sq. lra. Qed.

Lemma bras_eq x : b_rastrigin x = Some (rsum (map (fun a => sq a + 10 * (1 - cos (2 * PI * a))) (vscale (512 / 10000) x))).
Proof. unfold b_rastrigin. f_equal. rewrite Rplus_comm. replace (length x) with (length (vscale (512 / 10000) x)) by apply map_length. exact (rast_sum (fun a => a) (vscale (512 / 10000) x)). Qed.
Lemma bras_nn : nonneg b_rastrigin. Proof. intros x v. rewrite bras_eq. intros H. apply some_inj in H; subst v. apply rsum_nn. intros. apply rast_term. Qed.
Lemma bras_tot n : total_at b_rastrigin n. Proof. intros x _. eexists. reflexivity. Qed.
Lemma bras_0 n : zero_at b_rastrigin n. Proof. unfold zero_at. rewrite bras_eq, vscale_zero. f_equal. apply rsum_0. intros a H. apply in_repeat in H. subst. apply rast_0. Qed.

Lemma f6_term p : 0 <= (let t := fst p * fst p + snd p * snd p in let t1 := sq (sin (sqrt t)) - 1 / 2 in let t2 := sq (1 + 1 / 1000 * t) in 1 / 2 + t1 / t2).
Proof.
  cbv zeta. set (t := fst p * fst p + snd p * snd p). assert (T : 0 <= t) by (unfold t; nra). pose proof (sin2_le1 (sqrt t)) as S1. set (s := sq (sin (sqrt t))) in *.
  assert (Q : 1 <= sq (1 + 1 / 1000 * t)) by (unfold sq; nra). set (q := sq (1 + 1 / 1000 * t)) in *. assert (I : 0 < / q <= 1) by (split; [apply Rinv_0_lt_compat; lra|rewrite <- Rinv_1; apply Rinv_le_contravar; lra]). unfold Rdiv. nra.
Qed.
Lemma f6_nn : nonneg expanded_schaffers_f6. Proof. intros x v H. apply some_inj in H; subst v. apply rsum_nn. intros. apply f6_term. Qed.
Lemma f6_tot n : total_at expanded_schaffers_f6 n. Proof. intros x _. eexists. reflexivity. Qed.
Lemma f6_0 n : zero_at expanded_schaffers_f6 n.
Proof. unfold zero_at, expanded_schaffers_f6. f_equal. apply rsum_0. intros p H. apply pairs_repeat in H. subst. cbn [fst snd]. replace (0 * 0 + 0 * 0) with 0 by lra. rewrite sqrt_0, sin_0. unfold sq. field. Qed.

(* Lunacek *)
Lemma lun_s_pos n : (2 <= n)%nat -> 0 < lun_s n.
Proof.
  intros H. unfold lun_s. assert (2 <= INR n) by (apply (le_INR 2); auto). assert (465 / 100 <= sqrt (INR n + 20)). { rewrite <- (sqrt_square (465 / 100)) by lra. apply sqrt_le_1; lra. }
  assert (K : 11 / 10 <= 2 * sqrt (INR n + 20) - 82 / 10) by lra. set (q := 2 * sqrt (INR n + 20) - 82 / 10) in *. assert (/ q <= / (11 / 10)) by (apply Rinv_le_contravar; lra). unfold Rdiv. lra.
Qed.
Definition lun_z (d shift : list R) : list R := map (fun p => let a := 2 * fst p in if Rlt_dec (snd p) 0 then - a else a) (combine (vscale (1 / 10) d) shift).
Lemma lun_nn x s m v : lunacek_bi_rastrigin x s m = Some v -> 0 <= v.
Proof.
  unfold lunacek_bi_rastrigin. destruct (Nat.ltb_spec (length x) 2) as [L|L]; [discriminate|]. intros H. apply obind_Some in H. destruct H as (d & A & H). apply obind_Some in H. destruct H as (y & B & H). apply some_inj in H; subst v.
  fold (lun_z d s) in *. destruct (vsub_len _ _ _ A) as (L1 & L2). assert (Lz : length (lun_z d s) = length x) by (unfold lun_z; rewrite map_length, combine_length; unfold vscale; rewrite map_length; lia).
  assert (Ly : length y = length x). { destruct m as [m|]; [apply matvec_len in B; congruence|injection B as <-; exact Lz]. }
  assert (C : rsum (map (fun a => cos (2 * PI * a)) y) <= INR (length x)). { rewrite <- Ly. replace (INR (length y)) with (rsum (map (fun _ : R => 1) y)) by (rewrite rsum_const; lra). apply rsum_le. intros. apply cos_le1. }
  match goal with |- 0 <= (if Rlt_dec ?a ?b then _ else _) + _ => set (t1 := a); set (t2 := b) end.
  assert (0 <= t1) by (unfold t1; apply rsum_nn; intros; apply sq_nn).
  assert (0 <= t2). { unfold t2. assert (0 <= rsum (map (fun a : R => sq (a - lun_mu1 (length x))) (map (fun a : R => a + 25 / 10) (lun_z d s)))) by (apply rsum_nn; intros; apply sq_nn). pose proof (lun_s_pos _ L). pose proof (pos_INR (length x)). nra. }
  destruct (Rlt_dec t1 t2); lra.
Qed.
Lemma lun_some x s m n : (2 <= n)%nat -> length x = n -> length s = n -> (forall m', m = Some m' -> square n m') -> exists v, lunacek_bi_rastrigin x s m = Some v.
Proof.
  intros L Lx Ls Hm. unfold lunacek_bi_rastrigin. destruct (Nat.ltb_spec (length x) 2) as [K|K]; [lia|]. destruct (vsub_some x s) as (d & A & Ld); [congruence|]. rewrite A. cbn [obind]. fold (lun_z d s).
  destruct m as [m|]; [|cbn; eauto]. assert (Lz : length (lun_z d s) = n) by (unfold lun_z; rewrite map_length, combine_length; unfold vscale; rewrite map_length; lia).
  destruct (matvec_some m (lun_z d s) n (Hm m eq_refl) Lz) as (z & -> & _). cbn. eauto.
Qed.
Lemma lun_z_0 s : lun_z (repeat 0 (length s)) s = repeat 0 (length s).
Proof. unfold lun_z. rewrite vscale_zero. induction s as [|a s IH]; [reflexivity|]. cbn. f_equal; [destruct (Rlt_dec a 0); lra|exact IH]. Qed.
Lemma lun_self s m n : (2 <= n)%nat -> length s = n -> (forall m', m = Some m' -> square n m') -> lunacek_bi_rastrigin s s m = Some 0.
Proof.
  intros L Ls Hm. unfold lunacek_bi_rastrigin. destruct (Nat.ltb_spec (length s) 2) as [K|K]; [lia|]. rewrite vsub_self. cbn [obind]. fold (lun_z (repeat 0 (length s)) s). rewrite lun_z_0, Ls.
  assert (E : match m with None => Some (repeat 0 n) | Some m => matvec m (repeat 0 n) end = Some (repeat 0 n)) by (destruct m as [m|]; [apply matvec_zero; auto|reflexivity]). rewrite E. cbn [obind]. rewrite map_repeat.
  rewrite (rsum_0 (fun a => sq (a - 25 / 10))) by (intros a H; apply in_repeat in H; subst; unfold sq; lra).
  rewrite (rsum_ext (fun a => cos (2 * PI * a)) (fun _ => 1)) by (intros a H; apply in_repeat in H; subst; rewrite Rmult_0_r; apply cos_0). rewrite rsum_const, repeat_length.
  assert (0 <= rsum (map (fun a : R => sq (a - lun_mu1 n)) (repeat (0 + 25 / 10) n))) by (apply rsum_nn; intros; apply sq_nn). pose proof (lun_s_pos n L). assert (2 <= INR n) by (apply (le_INR 2); auto).
  match goal with |- context [Rlt_dec 0 ?b] => assert (0 < b) by nra; destruct (Rlt_dec 0 b); [|lra] end. f_equal. lra.
Qed.
Lemma lun0_nn : nonneg lunacek0. Proof. intros x v. apply lun_nn. Qed.
Lemma lun0_tot n : (2 <= n)%nat -> total_at lunacek0 n. Proof. intros L x Lx. unfold lunacek0. apply (lun_some x _ None n); auto; [rewrite repeat_length; auto|discriminate]. Qed.
Lemma lun0_0 n : (2 <= n)%nat -> zero_at lunacek0 n. Proof. intros L. unfold zero_at, lunacek0. rewrite repeat_length. apply (lun_self (repeat 0 n) None n); auto; [apply repeat_length|discriminate]. Qed.

(* non-continuous Rastrigin *)
Lemma ncr_nn x s m v x' : non_cont_rastrigin x s m = Some (v, x') -> 0 <= v.
Proof.
  unfold non_cont_rastrigin. destruct (length x =? length s)%nat; [|discriminate]. intros H. apply obind_Some in H. destruct H as (d & A & H). apply obind_Some in H. destruct H as (z & B & H). injection H as <- _.
  apply rsum_nn. intros a _. pose proof (cos_le1 (2 * PI * a)). nra.
Qed.

(* Levy *)
Lemma blev_eq x : b_levy x = levy x.
Proof. unfold b_levy, levy. replace (map (fun a => 1 + 25 / 100 * (a - 1)) x) with (map (fun x0 : R => 1 + (x0 - 1) / 4) x); [reflexivity|]. apply map_ext. intros. field. Qed.
Lemma blev_nn : nonneg b_levy.
Proof. intros x v. rewrite blev_eq. intros H. destruct x as [|a x]; [discriminate|]. destruct (levy_some (a :: x)) as (w & A & B & _); [discriminate|]. rewrite A in H. apply some_inj in H; subst v. exact B. Qed.
Lemma blev_tot n : n <> 0%nat -> total_at b_levy n.
Proof. intros N x L. rewrite blev_eq. destruct (levy_some x) as (w & A & _); [intros ->; cbn in L; congruence|]. eauto. Qed.
Lemma sin_34 : sq (sin (PI * (3 / 4))) = 1 / 2.
Proof. replace (PI * (3 / 4)) with (3 * (PI / 4)) by field. rewrite sin_3PI4. unfold sq. assert (H : sqrt 2 * sqrt 2 = 2) by (apply sqrt_sqrt; lra). assert (sqrt 2 <> 0) by (intros E; rewrite E in H; lra). unfold Rdiv. rewrite Rmult_1_l. rewrite <- Rinv_mult. rewrite H. lra. Qed.
Lemma blev_0 n : n <> 0%nat -> exists v, b_levy (repeat 0 n) = Some v /\ 1 / 2 < v.
Proof.
  intros N. unfold b_levy. rewrite map_repeat. replace (1 + 25 / 100 * (0 - 1)) with (3 / 4) by lra. destruct n as [|n]; [congruence|]. cbn [repeat]. eexists. split; [reflexivity|]. change (3 / 4 :: repeat (3 / 4) n) with (repeat (3 / 4) (S n)). rewrite last_repeat by lia. rewrite sin_34.
  assert (0 <= rsum (map (fun wi : R => sq (wi - 1) * (1 + 10 * sq (sin (PI * wi + 1)))) (removelast (repeat (3 / 4) (S n))))) by (apply rsum_nn; intros; apply levy_term1).
  pose proof (sq_nn (sin (2 * PI * (3 / 4)))). assert (sq (3 / 4 - 1) = 1 / 16) by (unfold sq; lra). nra.
Qed.

(* modified Schwefel *)
Lemma rfloor_b x : rfloor x <= x < rfloor x + 1. Proof. unfold rfloor. destruct (base_Int_part x). lra. Qed.
Lemma rfloor_is x z : IZR z <= x < IZR z + 1 -> rfloor x = IZR z.
Proof. intros H. unfold rfloor, Int_part. rewrite <- (tech_up x (z + 1)); [f_equal; lia| |]; rewrite plus_IZR; lra. Qed.
Lemma rmod_b a m : 0 < m -> 0 <= rmod a m < m.
Proof. intros H. unfold rmod. pose proof (rfloor_b (a / m)). set (k := rfloor (a / m)) in *. assert (E : a = m * (a / m)) by (field; lra). set (q := a / m) in *. nra. Qed.
Lemma ms_term_top n z : n <> 0%nat -> ms_term n z <= top.
Proof.
  intros N. assert (0 < INR n) by (apply lt_0_INR; lia). assert (P : forall t, 0 <= sq t / (10000 * INR n)). { intros t. apply Rmult_le_pos; [apply sq_nn|]. left. apply Rinv_0_lt_compat. lra. }
  unfold ms_term. destruct (Rlt_dec z (-500)).
  - cbv zeta. pose proof (rmod_b (Rabs z) 500 ltac:(lra)). pose proof (xsin_top (rmod (Rabs z) 500 - 500)) as K. pose proof (P (z + 500)). assert (Rabs (rmod (Rabs z) 500 - 500) <= 500) by (apply Rabs_le; lra). specialize (K H2). lra.
  - destruct (Rlt_dec 500 z).
    + cbv zeta. pose proof (rmod_b z 500 ltac:(lra)). pose proof (xsin_top (500 - rmod z 500)) as K. pose proof (P (z - 500)). assert (Rabs (500 - rmod z 500) <= 500) by (apply Rabs_le; lra). specialize (K H2). lra.
    + apply xsin_top. apply Rabs_le. lra.
Qed.
Lemma ms_low x v : modified_schwefel x = Some v -> INR (length x) / 10 ^ 5 <= v.
Proof.
  intros H. apply some_inj in H; subst v. destruct x as [|a x]; [cbn; lra|]. set (n := length (a :: x)).
  assert (K : rsum (map (fun a => ms_term n (10 * a + ms_shift)) (a :: x)) <= rsum (map (fun _ : R => top) (a :: x))) by (apply rsum_le; intros; apply ms_term_top; discriminate). rewrite rsum_const in K. fold n in K. unfold top in K. lra.
Qed.
Lemma ms_nn : nonneg modified_schwefel. Proof. intros x v H. apply ms_low in H. pose proof (pos_INR (length x)). lra. Qed.
Lemma ms_tot n : total_at modified_schwefel n. Proof. intros x _. eexists. reflexivity. Qed.
Lemma ms_0 n : exists v, modified_schwefel (repeat 0 n) = Some v /\ v <= INR n * (2 / 10 ^ 5).
Proof.
  eexists. split; [reflexivity|]. rewrite repeat_length. rewrite (rsum_ext _ (fun _ => ms_shift * sin (sqrt (Rabs ms_shift)))).
  - rewrite rsum_const, repeat_length. pose proof (xsin_near ms_shift ltac:(unfold ms_shift; lra)) as K. pose proof (pos_INR n). nra.
  - intros a H. apply in_repeat in H. subst. replace (10 * 0 + ms_shift) with ms_shift by lra. unfold ms_term. assert (-500 < ms_shift < 500) by (unfold ms_shift; lra). destruct (Rlt_dec ms_shift (-500)); [lra|]. destruct (Rlt_dec 500 ms_shift); [lra|]. reflexivity.
Qed.

(* elliptic *)
Lemma ell_nn : nonneg high_conditioned_elliptic.
Proof. intros x v. unfold high_conditioned_elliptic. destruct (length x =? 1)%nat; [discriminate|]. intros H. apply some_inj in H; subst v. apply rsum_nn. intros. apply Rmult_le_pos; [apply sq_nn|left; apply exp_pos]. Qed.
Lemma ell_tot n : n <> 1%nat -> total_at high_conditioned_elliptic n.
Proof. intros N x L. unfold high_conditioned_elliptic. destruct (Nat.eqb_spec (length x) 1); [congruence|]. eauto. Qed.
Lemma ell_0 n : n <> 1%nat -> zero_at high_conditioned_elliptic n.
Proof. intros N. unfold zero_at, high_conditioned_elliptic. rewrite repeat_length. destruct (Nat.eqb_spec n 1); [congruence|]. f_equal. apply rsum_0. intros [i x] H. apply enum_in in H. destruct H as (H & _). apply in_repeat in H. subst. cbn [fst snd]. unfold sq. lra. Qed.

(* Ackley *)
Lemma back_eq x : b_ackley x = ackley x.
Proof. destruct x as [|a x]; [reflexivity|]. unfold b_ackley, ackley. f_equal. lra. Qed.
Lemma back_nn : nonneg b_ackley.
Proof. intros x v. rewrite back_eq. intros H. destruct x as [|a x]; [discriminate|]. destruct (ackley_some (a :: x)) as (w & A & B & _); [discriminate|]. rewrite A in H. apply some_inj in H; subst v. exact B. Qed.
Lemma back_tot n : n <> 0%nat -> total_at b_ackley n.
Proof. intros N x L. rewrite back_eq. destruct (ackley_some x) as (w & A & _); [intros ->; cbn in L; congruence|]. eauto. Qed.
Lemma back_0 n : n <> 0%nat -> zero_at b_ackley n. Proof. intros N. unfold zero_at. rewrite back_eq. apply ackley_0. exact N. Qed.

(* Weierstrass *)
Lemma cos_odd m : cos (PI * (2 * INR m + 1)) = -1.
Proof. replace (PI * (2 * INR m + 1)) with (PI + 2 * INR m * PI) by ring. rewrite cos_period. apply cos_PI. Qed.
Lemma three_odd k : exists m, 3 ^ k = 2 * INR m + 1.
Proof. induction k as [|k (m & IH)]; [exists 0%nat; cbn; lra|]. exists (3 * m + 1)%nat. cbn [pow]. rewrite IH, plus_INR, mult_INR. cbn. lra. Qed.
Lemma cos_3k k : cos (PI * 3 ^ k) = -1. Proof. destruct (three_odd k) as (m & ->). apply cos_odd. Qed.
Lemma wei_term a k : (1 / 2) ^ k * cos (PI * 3 ^ k) <= (1 / 2) ^ k * cos (2 * (a + 1 / 2) * (PI * 3 ^ k)).
Proof. rewrite cos_3k. apply Rmult_le_compat_l; [apply pow_le; lra|]. apply COS_bound. Qed.
Lemma wei_nn : nonneg weierstrass.
Proof.
  intros x v H. apply some_inj in H. subst v. set (c := rsum (map (fun k => (1 / 2) ^ k * cos (PI * 3 ^ k)) (seq 0 21))). assert (K : rsum (map (fun _ : R => c) (vscale (5 / 1000) x)) <= rsum (map (fun a => rsum (map (fun k => (1 / 2) ^ k * cos (2 * (a + 1 / 2) * (PI * 3 ^ k))) (seq 0 21))) (vscale (5 / 1000) x))).
  { apply rsum_le. intros a _. apply rsum_le. intros k _. apply wei_term. }
  rewrite rsum_const in K. unfold vscale in K at 1. rewrite map_length in K. fold c. lra.
Qed.
Lemma wei_tot n : total_at weierstrass n. Proof. intros x _. eexists. reflexivity. Qed.
Lemma wei_0 n : zero_at weierstrass n.
Proof.
  unfold zero_at, weierstrass. f_equal. rewrite vscale_zero. rewrite (rsum_ext _ (fun _ => rsum (map (fun k => (1 / 2) ^ k * cos (PI * 3 ^ k)) (seq 0 21)))).
  - rewrite rsum_const, repeat_length. lra.
  - intros a H. apply in_repeat in H. subst. apply rsum_ext. intros k _. f_equal. f_equal. lra.
Qed.

(* Griewank *)
Lemma bgri_nn : nonneg b_griewank.
Proof.
  intros x v H. apply some_inj in H; subst v. set (y := vscale 6 x). assert (P : -1 <= rprod (map (fun ix => cos (snd ix / (INR (fst ix) + 1))) (enum 0 y)) <= 1) by (apply rprod_abs; intros; apply COS_bound).
  assert (0 <= rsum (map (fun a : R => 1 / 4000 * a * a) y)) by (apply rsum_nn; intros; nra). lra.
Qed.
Lemma bgri_tot n : total_at b_griewank n. Proof. intros x _. eexists. reflexivity. Qed.
Lemma bgri_0 n : zero_at b_griewank n.
Proof.
  unfold zero_at, b_griewank. f_equal. rewrite vscale_zero. rewrite rsum_0 by (intros a H; apply in_repeat in H; subst; lra). rewrite rprod_1; [lra|]. intros [i x] H. apply enum_in in H. destruct H as (H & _). apply in_repeat in H. subst. cbn [fst snd]. unfold Rdiv. rewrite Rmult_0_l. apply cos_0.
Qed.

(* Katsuura *)
Lemma rprod_ge1 {A} (g : A -> R) l : (forall a, In a l -> 1 <= g a) -> 1 <= rprod (map g l).
Proof. induction l as [|a l IH]; intros H; cbn; [lra|]. pose proof (H a (or_introl eq_refl)). assert (1 <= rprod (map g l)) by (apply IH; intros; apply H; right; auto). unfold rprod in *. nra. Qed.
Lemma Rpower_ge1 b a : 1 <= b -> 0 <= a -> 1 <= Rpower b a.
Proof. intros B A. unfold Rpower. rewrite <- exp_0. apply exp_mono. assert (0 <= ln b). { destruct B as [B|<-]; [|rewrite ln_1; lra]. left. rewrite <- ln_1. apply ln_increasing; lra. } nra. Qed.
Lemma kat_nn a : 0 <= kat_sum a.
Proof. apply rsum_nn. intros j _. apply Rmult_le_pos; [apply Rabs_pos|]. left. apply Rinv_0_lt_compat, pow_lt. lra. Qed.
Lemma katsuura_nn : nonneg katsuura.
Proof.
  intros x v H. destruct x as [|a x]; [discriminate|]. unfold katsuura in H. apply some_inj in H; subst v. set (n := INR (length (a :: x))). assert (Hn : 0 < n) by (apply lt_0_INR; cbn; lia).
  match goal with |- 0 <= _ * ?p - _ => assert (P : 1 <= p) end.
  { apply rprod_ge1. intros [i y] _. cbn [fst snd]. apply Rpower_ge1.
    - pose proof (kat_nn y). pose proof (pos_INR i). nra.
    - apply Rmult_le_pos; [lra|]. left. apply Rinv_0_lt_compat. apply exp_pos. }
  assert (0 < 10 / (n * n)) by (apply Rdiv_lt_0_compat; nra). match type of P with 1 <= ?p => set (q := p) in * end. nra.
Qed.
Lemma katsuura_tot n : n <> 0%nat -> total_at katsuura n. Proof. intros N x L. destruct x; [cbn in L; congruence|]. cbn. eauto. Qed.
Lemma rround_0 : rround 0 = 0.
Proof. unfold rround. rewrite (rfloor_is (0 + 1 / 2) 0%Z); lra. Qed.
Lemma kat_0 : kat_sum 0 = 0.
Proof. apply rsum_0. intros j _. rewrite Rmult_0_r, rround_0, Rminus_0_r, Rabs_R0. unfold Rdiv. lra. Qed.
Lemma katsuura_0 n : n <> 0%nat -> zero_at katsuura n.
Proof.
  intros N. unfold zero_at, katsuura. destruct (repeat 0 n) as [|a l] eqn:E; [destruct n; [congruence|discriminate]|]. rewrite <- E. f_equal. rewrite rprod_1; [lra|].
  intros [i x] H. apply enum_in in H. destruct H as (H & _). rewrite vscale_zero in H. apply in_repeat in H. subst. cbn [fst snd]. rewrite kat_0, Rmult_0_r, Rplus_0_r. unfold Rpower. rewrite ln_1, Rmult_0_r. apply exp_0.
Qed.

(* HappyCat, HGBat *)
Lemma cat_sum y : y <> [] -> (1 / 2 * rsum (map sq y) + rsum y) / INR (length y) + 1 / 2 = 1 / (2 * INR (length y)) * rsum (map (fun x => sq (x + 1)) y) .
Proof.
  intros Hy. assert (0 < INR (length y)) by (apply lt_0_INR; destruct y; [congruence|cbn; lia]). set (n := INR (length y)) in *.
  assert (K : rsum (map (fun x => sq (x + 1)) y) = rsum (map sq y) + 2 * rsum y + n).
  { unfold n. replace (INR (length y)) with (rsum (map (fun _ : R => 1) y)) by (rewrite rsum_const; lra). replace (2 * rsum y) with (rsum (map (fun x => 2 * x) y)) by (rewrite (rsum_scal 2 (fun x => x)), map_id; ring). rewrite <- rsum_plus, <- rsum_plus. apply rsum_ext. intros. unfold sq. ring. }
  rewrite K. field. lra.
Qed.
Lemma cat_nn y : y <> [] -> 0 <= (1 / 2 * rsum (map sq y) + rsum y) / INR (length y) + 1 / 2.
Proof.
  intros Hy. rewrite cat_sum by exact Hy. assert (0 < INR (length y)) by (apply lt_0_INR; destruct y; [congruence|cbn; lia]). apply Rmult_le_pos; [|apply rsum_nn; intros; apply sq_nn]. left. apply Rdiv_lt_0_compat; lra.
Qed.
Lemma cat_at n : rsum (map sq (repeat (-1) n)) = INR n /\ rsum (repeat (-1) n) = - INR n.
Proof.
  split.
  - rewrite (rsum_ext _ (fun _ => 1)); [rewrite rsum_const, repeat_length; lra|]. intros a Ha. apply in_repeat in Ha. subst. unfold sq. lra.
  - rewrite <- (map_id (repeat (-1) n)). rewrite (rsum_ext _ (fun _ => -1)); [rewrite rsum_const, repeat_length; lra|]. intros a Ha. apply in_repeat in Ha. auto.
Qed.
Definition cat_y (x : list R) : list R := map (fun a => 5 / 100 * a - 1) x.
Lemma cat_len x : length (cat_y x) = length x. Proof. apply map_length. Qed.
Lemma cat_ne x : x <> [] -> cat_y x <> []. Proof. destruct x; [congruence|discriminate]. Qed.
Lemma cat_y0 n : cat_y (repeat 0 n) = repeat (-1) n. Proof. unfold cat_y. rewrite map_repeat. f_equal. lra. Qed.
Lemma hc_nn : nonneg happy_cat.
Proof.
  intros x v H. destruct x as [|a x]; [discriminate|]. unfold happy_cat in H. apply some_inj in H; subst v. fold (cat_y (a :: x)). pose proof (cat_nn (cat_y (a :: x)) (cat_ne (a :: x) ltac:(discriminate))) as K. rewrite cat_len in K.
  match goal with |- 0 <= rpow ?b ?e + _ + _ => pose proof (rpow_nn b e) end. lra.
Qed.
Lemma hc_tot n : n <> 0%nat -> total_at happy_cat n. Proof. intros N x L. destruct x; [cbn in L; congruence|]. cbn. eauto. Qed.
Lemma hc_0 n : n <> 0%nat -> zero_at happy_cat n.
Proof.
  intros N. unfold zero_at, happy_cat. destruct (repeat 0 n) as [|a l] eqn:E; [destruct n; [congruence|discriminate]|]. rewrite <- E. fold (cat_y (repeat 0 n)). rewrite cat_y0. destruct (cat_at n) as (A & B). rewrite A, B, repeat_length. f_equal.
  assert (0 < INR n) by (apply lt_0_INR; lia). rewrite Rminus_diag_eq by reflexivity. rewrite Rabs_R0, rpow_0 by lra. field. lra.
Qed.
Lemma hgb_nn : nonneg h_g_bat.
Proof.
  intros x v H. destruct x as [|a x]; [discriminate|]. unfold h_g_bat in H. apply some_inj in H; subst v. fold (cat_y (a :: x)). pose proof (cat_nn (cat_y (a :: x)) (cat_ne (a :: x) ltac:(discriminate))) as K. rewrite cat_len in K.
  match goal with |- 0 <= rpow ?b ?e + _ + _ => pose proof (rpow_nn b e) end. lra.
Qed.
Lemma hgb_tot n : n <> 0%nat -> total_at h_g_bat n. Proof. intros N x L. destruct x; [cbn in L; congruence|]. cbn. eauto. Qed.
Lemma hgb_0 n : n <> 0%nat -> zero_at h_g_bat n.
Proof.
  intros N. unfold zero_at, h_g_bat. destruct (repeat 0 n) as [|a l] eqn:E; [destruct n; [congruence|discriminate]|]. rewrite <- E. fold (cat_y (repeat 0 n)). rewrite cat_y0. destruct (cat_at n) as (A & B). rewrite A, B, repeat_length. f_equal.
  assert (0 < INR n) by (apply lt_0_INR; lia). replace (INR n * INR n - - INR n * - INR n) with 0 by ring. rewrite Rabs_R0, rpow_0 by lra. field. lra.
Qed.

(* Griewank plus Rosenbrock *)
Lemma gr_nn a b : 0 <= gr_term a b.
Proof. unfold gr_term. set (t := 100 * sq (a * a - b) + sq (a - 1)). cbv zeta. pose proof (cos_le1 t). nra. Qed.
Lemma gr_1 : gr_term 1 1 = 0.
Proof. unfold gr_term. replace (100 * sq (1 * 1 - 1) + sq (1 - 1)) with 0 by (unfold sq; lra). cbv zeta. rewrite cos_0. lra. Qed.
Lemma egr_nn : nonneg expanded_griewanks_plus_rosenbrock.
Proof. intros x v H. apply some_inj in H; subst v. apply rsum_nn. intros p _. pose proof (gr_nn (fst p) (snd p)). match goal with |- 0 <= _ + gr_term ?a ?b => pose proof (gr_nn a b) end. lra. Qed.
Lemma egr_tot n : total_at expanded_griewanks_plus_rosenbrock n. Proof. intros x _. eexists. reflexivity. Qed.
Lemma egr_0 n : zero_at expanded_griewanks_plus_rosenbrock n.
Proof.
  unfold zero_at, expanded_griewanks_plus_rosenbrock. f_equal. rewrite map_repeat. replace (5 / 100 * 0 + 1) with 1 by lra. apply rsum_0. intros p H. destruct n as [|n]; [destruct H|]. rewrite last_repeat by lia. apply pairs_repeat in H. subst. cbn [fst snd repeat hd]. rewrite gr_1. lra.
Qed.

(* Schaffer F7 *)
Lemma s7_den n : n <> 1%nat -> 0 < INR n * INR n - 2 * INR n + 1.
Proof. intros N. replace (INR n * INR n - 2 * INR n + 1) with (sq (INR n - 1)) by (unfold sq; ring). assert (INR n <> 1) by (intros E; apply N; apply INR_eq; cbn; lra). unfold sq. assert (INR n - 1 <> 0) by lra. nra. Qed.
Lemma s7_nn : nonneg schaffers_f7.
Proof.
  intros x v. unfold schaffers_f7. destruct (Nat.eqb_spec (length x) 1) as [E|E]; [discriminate|]. intros H. apply some_inj in H; subst v. match goal with |- 0 <= ?s * ?s / _ => pose proof (sq_nn s) as K end. unfold sq in K. apply Rmult_le_pos; [exact K|]. left. apply Rinv_0_lt_compat, s7_den. exact E.
Qed.
Lemma s7_tot n : n <> 1%nat -> total_at schaffers_f7 n.
Proof. intros N x L. unfold schaffers_f7. destruct (Nat.eqb_spec (length x) 1); [congruence|]. eauto. Qed.
Lemma s7_0 n : n <> 1%nat -> zero_at schaffers_f7 n.
Proof.
  intros N. unfold zero_at, schaffers_f7. rewrite repeat_length. destruct (Nat.eqb_spec n 1); [congruence|]. f_equal. rewrite rsum_0; [pose proof (s7_den n N); field; lra|].
  intros p H. apply pairs_repeat in H. subst. cbn [fst snd]. replace (0 * 0 + 0 * 0) with 0 by lra. rewrite sqrt_0. rewrite (rpow_0 (1 / 2)) by lra. lra.
Qed.
