(** DTLZ2: the objectives are spherical coordinates (C83). *)
From Coq Require Import List Bool Arith ZArith Reals Lia Lra Psatz.
From Verif Require Import BM_Model BM_Proofs CE_Model CE_Proofs CE_Final DT_Model DT_Spec.
Import ListNotations.
Open Scope R_scope.

(* ---------- spherical coordinates ---------- *)
Fixpoint sph (X : list R) : list R := match X with [] => [1] | a :: r => hsin a :: map (Rmult (hcos a)) (sph r) end.
Lemma sph_len X : length (sph X) = S (length X). Proof. induction X; cbn; [reflexivity|]. rewrite map_length, IHX. reflexivity. Qed.
Lemma ss_cons a v : square_sum (a :: v) = a * a + square_sum v. Proof. reflexivity. Qed.
Lemma ss_nil : square_sum [] = 0. Proof. reflexivity. Qed.
Lemma ss_app u v : square_sum (u ++ v) = square_sum u + square_sum v. Proof. induction u as [|a u IH]; [rewrite ss_nil; cbn [app]; lra|]. cbn [app]. rewrite !ss_cons, IH. lra. Qed.
Lemma ss_rev v : square_sum (rev v) = square_sum v. Proof. induction v as [|a v IH]; [reflexivity|]. cbn [rev]. rewrite ss_app, IH, !ss_cons, ss_nil. lra. Qed.
Lemma ss_scale k v : square_sum (map (Rmult k) v) = k * k * square_sum v. Proof. induction v as [|a v IH]; [cbn [map]; rewrite ss_nil; lra|]. cbn [map]. rewrite !ss_cons, IH. lra. Qed.
Lemma ss_nn v : 0 <= square_sum v. Proof. induction v as [|a v IH]; [rewrite ss_nil; lra|]. rewrite ss_cons. nra. Qed.
Lemma ss_sq v : rsum (map sq v) = square_sum v. Proof. induction v as [|a v IH]; [reflexivity|]. rewrite ss_cons, <- IH. reflexivity. Qed.
Lemma sph_ss X : square_sum (sph X) = 1.
Proof. induction X as [|a X IH]; cbn [sph]; [rewrite ss_cons, ss_nil; lra|]. rewrite ss_cons, ss_scale, IH. pose proof (sin2_cos2 (a * PI / 2)) as K. unfold Rsqr in K. unfold hsin, hcos. lra. Qed.
Lemma hcos_nn a : 0 <= a <= 1 -> 0 <= hcos a. Proof. intros H. pose proof PI_RGT_0. apply cos_ge_0; nra. Qed.
Lemma hsin_nn a : 0 <= a <= 1 -> 0 <= hsin a. Proof. intros H. pose proof PI_RGT_0. apply sin_ge_0; nra. Qed.
Lemma sph_nn X : Forall (fun a => 0 <= a <= 1) X -> Forall (fun a => 0 <= a) (sph X).
Proof.
  induction X as [|a X IH]; intros H; cbn; [repeat constructor; lra|]. inversion H as [|? ? A B]; subst. constructor; [apply hsin_nn; exact A|]. specialize (IH B). apply Forall_forall. intros b Hb. apply in_map_iff in Hb. destruct Hb as (c & <- & Hc). rewrite Forall_forall in IH. apply Rmult_le_pos; [apply hcos_nn; exact A|auto].
Qed.
Lemma sph_nth X : forall j, (j <= length X)%nat -> nth_error (sph X) j = Some (rprod (map hcos (firstn j X)) * (match nth_error X j with Some a => hsin a | None => 1 end)).
Proof.
  induction X as [|a X IH]; intros [|j] H; cbn in H |- *; try lia; try (f_equal; lra). rewrite nth_error_map, IH by lia. cbn. f_equal. unfold rprod. lra.
Qed.

Lemma dt_obj_nth X g i : (i <= length X)%nat -> dt_obj X g i = Some ((1 + g) * nth (length X - i) (sph X) 0).
Proof.
  intros H. unfold dt_obj. rewrite <- Nat2Z.inj_sub by exact H. cbv zeta. unfold slice_to, py_index. destruct (Z.ltb_spec (Z.of_nat (length X - i)) 0) as [K|K]; [lia|]. rewrite Nat2Z.id.
  assert (E : nth (length X - i) (sph X) 0 = rprod (map hcos (firstn (length X - i) X)) * match nth_error X (length X - i) with Some a => hsin a | None => 1 end).
  { apply nth_error_nth. apply sph_nth. lia. }
  rewrite E. destruct i as [|i].
  - replace (length X - 0)%nat with (length X) by lia. rewrite (proj2 (nth_error_None X (length X))) by lia. f_equal. lra.
  - destruct (nth_error X (length X - S i)) as [a|] eqn:Ea; [|apply nth_error_None in Ea; lia]. cbn [obind]. f_equal. lra.
Qed.
Lemma all_some_map {A B} (f : A -> option B) (g : A -> B) l : (forall a, In a l -> f a = Some (g a)) -> all_some (map f l) = Some (map g l).
Proof. induction l as [|a l IH]; intros H; cbn; [reflexivity|]. rewrite (H a (or_introl eq_refl)), IH by (intros; apply H; right; auto). reflexivity. Qed.
Lemma all_some_none {A B} (f : A -> option B) l a : In a l -> f a = None -> all_some (map f l) = None.
Proof. induction l as [|b l IH]; intros I H; [destruct I|]. cbn. destruct I as [->|I]; [rewrite H; reflexivity|]. destruct (f b); [|reflexivity]. cbn. rewrite (IH I H). reflexivity. Qed.
Lemma rev_nth_map (v : list R) n : length v = S n -> map (fun i => nth (n - i) v 0) (seq 0 (S n)) = rev v.
Proof.
  intros L. apply (nth_ext _ _ 0 0); [rewrite map_length, seq_length, rev_length; lia|]. intros i Hi. rewrite map_length, seq_length in Hi. rewrite rev_nth by lia. rewrite (nth_indep _ 0 ((fun i => nth (n - i) v 0) 0%nat)) by (rewrite map_length, seq_length; lia).
  rewrite (map_nth (fun i => nth (n - i) v 0)). rewrite seq_nth by lia. f_equal. lia.
Qed.
Lemma dt_eval_sph n_obj x : (1 <= n_obj)%nat -> (n_obj - 1 <= length x)%nat -> dt_eval n_obj x = Some (map (Rmult (1 + g2 (skipn (n_obj - 1) x))) (rev (sph (firstn (n_obj - 1) x)))).
Proof.
  intros H1 H2. unfold dt_eval. cbv zeta. set (X := firstn (n_obj - 1) x). assert (L : length X = (n_obj - 1)%nat) by (unfold X; rewrite firstn_length; lia). set (g := g2 _).
  rewrite (all_some_map _ (fun i => (1 + g) * nth (length X - i) (sph X) 0)) by (intros i Hi; apply in_seq in Hi; apply dt_obj_nth; lia). f_equal.
  rewrite <- (map_map (fun i => nth (length X - i) (sph X) 0) (Rmult (1 + g))). f_equal. replace n_obj with (S (length X)) by lia. apply rev_nth_map. apply sph_len.
Qed.
Lemma g2_nn XM : 0 <= g2 XM. Proof. apply rsum_nn. intros. apply sq_nn. Qed.
Lemma g2_0 XM : g2 XM = 0 <-> Forall (fun a => a = 1 / 2) XM.
Proof.
  split; intros H.
  - apply Forall_forall. intros a Ha. assert (K : sq (a - 1 / 2) = 0) by (apply (rsum_inv (fun a => sq (a - 1 / 2)) XM); auto; [intros; apply sq_nn|unfold g2 in H; lra]). apply sq_inv in K. lra.
  - apply rsum_0. intros a Ha. rewrite Forall_forall in H. rewrite (H a Ha). unfold sq. lra.
Qed.
Lemma in_rev_forall {A} (P : A -> Prop) l : Forall P l -> Forall P (rev l).
Proof. rewrite !Forall_forall. intros H a Ha. apply H. apply in_rev. exact Ha. Qed.

Lemma dt_sphere n_var n_obj x : (1 <= n_obj)%nat -> (n_obj - 1 <= n_var)%nat -> length x = n_var ->
  exists F, dtlz2 n_var n_obj x = Some F /\ length F = n_obj /\ square_sum F = sq (1 + g2 (skipn (n_obj - 1) x)) /\ (Forall (fun a => 0 <= a <= 1) x -> Forall (fun a => 0 <= a) F).
Proof.
  intros H1 H2 L. unfold dtlz2. rewrite L, Nat.eqb_refl, dt_eval_sph by lia. eexists. split; [reflexivity|]. split; [|split].
  - rewrite map_length, rev_length, sph_len, firstn_length. lia.
  - rewrite ss_scale, ss_rev, sph_ss. unfold sq. lra.
  - intros B. assert (C : Forall (fun a => 0 <= a) (rev (sph (firstn (n_obj - 1) x)))) by (apply in_rev_forall, sph_nn, forall_firstn; exact B). rewrite Forall_forall in C. apply Forall_forall. intros b Hb. apply in_map_iff in Hb. destruct Hb as (c & <- & Hc). apply Rmult_le_pos; [pose proof (g2_nn (skipn (n_obj - 1) x)); lra|auto].
Qed.

(* ---------- the Pareto set ---------- *)
Lemma le_ss u : forall v, Forall2 Rle u v -> Forall (fun a => 0 <= a) u -> square_sum u <= square_sum v /\ (square_sum v <= square_sum u -> u = v).
Proof.
  induction u as [|a u IH]; intros v H N; inversion H as [|? b ? v' A B]; subst; [split; [lra|reflexivity]|]. inversion N as [|? ? N1 N2]; subst. destruct (IH v' B N2) as (I1 & I2). rewrite !ss_cons. split; [nra|]. intros K. assert (b * b <= a * a) by nra. assert (a = b) by nra. subst. f_equal. apply I2. lra.
Qed.
Lemma scale_le k v : 1 <= k -> Forall (fun a => 0 <= a) v -> Forall2 Rle v (map (Rmult k) v).
Proof. intros K. induction v as [|a v IH]; intros H; cbn; [constructor|]. inversion H; subst. constructor; [nra|auto]. Qed.
Lemma skipn_app_len (a b : list R) n : length a = n -> skipn n (a ++ b) = b. Proof. intros <-. rewrite skipn_app, skipn_all, Nat.sub_diag. reflexivity. Qed.
Lemma firstn_app_len (a b : list R) n : length a = n -> firstn n (a ++ b) = a. Proof. intros <-. rewrite firstn_app, firstn_all, Nat.sub_diag. cbn. apply app_nil_r. Qed.
Definition centred (n_var : nat) (X : list R) : list R := X ++ repeat (1 / 2) (n_var - length X).
Lemma centred_box n_var X : (length X <= n_var)%nat -> Forall (fun a => 0 <= a <= 1) X -> in_box n_var (centred n_var X).
Proof. intros L H. split; [unfold centred; rewrite app_length, repeat_length; lia|]. apply Forall_app. split; [exact H|]. apply Forall_forall. intros a Ha. apply in_repeat in Ha. subst. lra. Qed.
Lemma centred_val n_var n_obj X : (1 <= n_obj)%nat -> (n_obj - 1 <= n_var)%nat -> length X = (n_obj - 1)%nat -> dtlz2 n_var n_obj (centred n_var X) = Some (rev (sph X)) /\ skipn (n_obj - 1) (centred n_var X) = repeat (1 / 2) (n_var - length X).
Proof.
  intros H1 H2 L. assert (Lc : length (centred n_var X) = n_var) by (unfold centred; rewrite app_length, repeat_length; lia). assert (S1 : skipn (n_obj - 1) (centred n_var X) = repeat (1 / 2) (n_var - length X)) by (apply skipn_app_len; exact L). split; [|exact S1].
  unfold dtlz2. rewrite Lc, Nat.eqb_refl, dt_eval_sph by lia. rewrite S1. rewrite (proj2 (g2_0 _)) by (apply Forall_forall; intros a Ha; apply in_repeat in Ha; exact Ha). unfold centred. rewrite firstn_app_len by exact L. f_equal. rewrite <- (map_id (rev (sph X))) at 2. apply map_ext. intros. lra.
Qed.
Lemma dt_pareto n_var n_obj x : (1 <= n_obj)%nat -> (n_obj - 1 <= n_var)%nat -> in_box n_var x -> (pareto_optimal n_var n_obj x <-> Forall (fun a => a = 1 / 2) (skipn (n_obj - 1) x)).
Proof.
  intros H1 H2 (L & B). destruct (dt_sphere n_var n_obj x H1 H2 L) as (F & EF & LF & SF & NF). specialize (NF B). split.
  - intros (_ & P). apply g2_0. destruct (Req_EM_T (g2 (skipn (n_obj - 1) x)) 0) as [E|E]; [exact E|]. exfalso. set (X := firstn (n_obj - 1) x). assert (LX : length X = (n_obj - 1)%nat) by (unfold X; rewrite firstn_length; lia).
    assert (BX : Forall (fun a => 0 <= a <= 1) X) by (apply forall_firstn; exact B). destruct (centred_val n_var n_obj X H1 H2 LX) as (V & _).
    apply (P (centred n_var X) (rev (sph X)) F); [apply centred_box; [lia|exact BX]|exact V|exact EF|].
    assert (EF2 : F = map (Rmult (1 + g2 (skipn (n_obj - 1) x))) (rev (sph X))). { unfold dtlz2 in EF. rewrite L, Nat.eqb_refl, dt_eval_sph in EF by lia. fold X in EF. congruence. }
    pose proof (g2_nn (skipn (n_obj - 1) x)) as G. split.
    + rewrite EF2. apply scale_le; [lra|]. apply in_rev_forall, sph_nn. exact BX.
    + intros K. rewrite <- K in SF. rewrite ss_rev, sph_ss in SF. unfold sq in SF. nra.
  - intros C. apply g2_0 in C. split; [split; assumption|]. intros y u v (Ly & By) Eu Ev (D1 & D2). rewrite EF in Ev. injection Ev as <-. rewrite C in SF. destruct (dt_sphere n_var n_obj y H1 H2 Ly) as (U & EU & LU & SU & NU). rewrite EU in Eu. injection Eu as <-. specialize (NU By).
    apply D2. apply (le_ss U F D1 NU). rewrite SF, SU. pose proof (g2_nn (skipn (n_obj - 1) y)). unfold sq. nra.
Qed.

(* ---------- the Pareto front ---------- *)
Lemma ss_0 v : square_sum v = 0 -> v = repeat 0 (length v).
Proof. intros H. rewrite <- ss_sq in H. apply sq_sum_inv. lra. Qed.
Lemma sph_zero_tail r : map (Rmult 0) (sph r) = repeat 0 (S (length r)).
Proof. rewrite <- sph_len. generalize (sph r). intros l. induction l as [|a l IH]; cbn; [reflexivity|]. rewrite IH. f_equal. lra. Qed.
Lemma sph_onto n : forall v, length v = S n -> Forall (fun a => 0 <= a) v -> square_sum v = 1 -> exists X, length X = n /\ Forall (fun a => 0 <= a <= 1) X /\ sph X = v.
Proof.
  induction n as [|n IH]; intros v L N S1.
  - destruct v as [|a [|b v]]; try discriminate. inversion N; subst. rewrite ss_cons, ss_nil in S1. exists []. repeat split; [constructor|]. cbn. f_equal. nra.
  - destruct v as [|a v]; [discriminate|]. inversion N as [|? ? N1 N2]; subst. rewrite ss_cons in S1. cbn in L. pose proof (ss_nn v) as SN. destruct (Req_EM_T a 1) as [E|E].
    + subst a. assert (Z : v = repeat 0 (length v)) by (apply ss_0; lra). exists (1 :: repeat 0 n). split; [cbn; rewrite repeat_length; reflexivity|]. split; [constructor; [lra|]; apply Forall_forall; intros b Hb; apply in_repeat in Hb; subst; lra|].
      cbn [sph]. unfold hsin, hcos. replace (1 * PI / 2) with (PI / 2) by field. rewrite sin_PI2, cos_PI2, sph_zero_tail, repeat_length. f_equal. rewrite Z. f_equal. lia.
    + assert (A1 : a < 1) by (assert (a <= 1) by nra; lra). set (r := sqrt (1 - a * a)). assert (R0 : 0 < r) by (apply sqrt_lt_R0; nra). assert (R2 : r * r = 1 - a * a) by (apply sqrt_sqrt; nra).
      destruct (IH (map (Rmult (/ r)) v)) as (X & LX & BX & SX).
      * rewrite map_length. lia.
      * apply Forall_forall. intros b Hb. apply in_map_iff in Hb. destruct Hb as (c & <- & Hc). rewrite Forall_forall in N2. apply Rmult_le_pos; [left; apply Rinv_0_lt_compat; exact R0|auto].
      * rewrite ss_scale. replace (square_sum v) with (r * r) by lra. field. lra.
      * pose proof PI_RGT_0 as P0. assert (AS : 0 <= asin a <= PI / 2). { split; [|apply asin_bound]. destruct (Rle_dec 0 (asin a)) as [K|K]; [exact K|]. exfalso. pose proof (asin_bound a). assert (sin (asin a) < 0) by (apply sin_lt_0_var; lra). rewrite sin_asin in H0 by lra. lra. }
        exists (asin a * 2 / PI :: X). split; [cbn; lia|]. split.
        { constructor; [|exact BX]. split; [apply Rmult_le_pos; [lra|left; apply Rinv_0_lt_compat; exact P0]|]. apply (Rmult_le_reg_r PI); [exact P0|]. replace (asin a * 2 / PI * PI) with (asin a * 2) by (field; lra). lra. }
        cbn [sph]. unfold hsin, hcos. replace (asin a * 2 / PI * PI / 2) with (asin a) by (field; lra). rewrite sin_asin by lra. rewrite cos_asin by lra. replace (1 - a²) with (1 - a * a) by reflexivity. fold r. rewrite SX. f_equal. rewrite map_map. rewrite <- (map_id v) at 2. apply map_ext. intros b. field. lra.
Qed.
Lemma dt_front n_var n_obj v : (1 <= n_obj)%nat -> (n_obj - 1 <= n_var)%nat -> ((exists x, pareto_optimal n_var n_obj x /\ dtlz2 n_var n_obj x = Some v) <-> on_front n_obj v).
Proof.
  intros H1 H2. split.
  - intros (x & P & E). pose proof P as ((L & B) & _). apply (dt_pareto n_var n_obj x H1 H2 (conj L B)) in P. apply g2_0 in P. destruct (dt_sphere n_var n_obj x H1 H2 L) as (F & EF & LF & SF & NF). rewrite EF in E. injection E as <-. split; [exact LF|]. split; [auto|]. rewrite SF, P. unfold sq. lra.
  - intros (L & N & S1). destruct (sph_onto (n_obj - 1) (rev v)) as (X & LX & BX & SX); [rewrite rev_length; lia|apply in_rev_forall; exact N|rewrite ss_rev; exact S1|]. exists (centred n_var X). destruct (centred_val n_var n_obj X H1 H2 LX) as (V & C). assert (BC : in_box n_var (centred n_var X)) by (apply centred_box; [lia|exact BX]). split.
    + apply dt_pareto; auto. rewrite C. apply Forall_forall. intros a Ha. apply in_repeat in Ha. exact Ha.
    + rewrite V, SX, rev_involutive. reflexivity.
Qed.
Lemma norm_pos v : (exists a, In a v /\ a <> 0) -> 0 < norm2 v.
Proof.
  intros (a & I & N). unfold norm2. apply sqrt_lt_R0. pose proof (sq_sum v) as [H|H]; [exact H|]. exfalso. apply N, sq_inv. apply (rsum_inv sq v); auto; [intros; apply sq_nn|lra].
Qed.
Lemma dt_generic n_obj v : length v = n_obj -> Forall (fun a => 0 <= a) v -> (exists a, In a v /\ a <> 0) -> exists u, generic_sphere v = Some u /\ on_front n_obj u.
Proof.
  intros L N E. pose proof (norm_pos v E) as P. unfold generic_sphere. destruct (Req_EM_T (norm2 v) 0); [lra|]. eexists. split; [reflexivity|]. split; [rewrite map_length; exact L|]. split.
  - apply Forall_forall. intros b Hb. apply in_map_iff in Hb. destruct Hb as (c & <- & Hc). rewrite Forall_forall in N. apply Rmult_le_pos; [auto|]. left. apply Rinv_0_lt_compat. exact P.
  - assert (M : map (fun a => a / norm2 v) v = map (Rmult (/ norm2 v)) v) by (apply map_ext; intros; unfold Rdiv; ring). rewrite M, ss_scale, <- ss_sq. assert (Q : norm2 v * norm2 v = rsum (map sq v)) by (apply sqrt_sqrt, sq_sum). rewrite <- Q. field. lra.
Qed.
Lemma dt_fixed n_obj v : on_front n_obj v -> generic_sphere v = Some v.
Proof. intros (_ & _ & S1). unfold generic_sphere. assert (N : norm2 v = 1) by (unfold norm2; rewrite ss_sq, S1; apply sqrt_1). rewrite N. destruct (Req_EM_T 1 0); [lra|]. f_equal. rewrite <- (map_id v) at 2. apply map_ext. intros. lra. Qed.

Lemma dt_reported n_var n_obj dirs : (1 <= n_obj)%nat -> (n_obj - 1 <= n_var)%nat -> Forall (fun v => length v = n_obj /\ Forall (fun a => 0 <= a) v /\ exists a, In a v /\ a <> 0) dirs ->
  Forall (fun o => exists v x, o = Some v /\ pareto_optimal n_var n_obj x /\ dtlz2 n_var n_obj x = Some v) (fst (pareto_front None dirs)).
Proof.
  intros H1 H2 D. cbn. apply Forall_forall. intros o Ho. apply in_map_iff in Ho. destruct Ho as (v & <- & I). rewrite Forall_forall in D. destruct (D v I) as (L & N & E). destruct (dt_generic n_obj v L N E) as (u & U & O). apply (dt_front n_var n_obj u H1 H2) in O. destruct O as (x & P & V). exists u, x. auto.
Qed.
Lemma dt_cached dirs dirs' : snd (pareto_front None dirs) = Some (fst (pareto_front None dirs)) /\ fst (pareto_front (snd (pareto_front None dirs)) dirs') = fst (pareto_front None dirs).
Proof. split; reflexivity. Qed.
Lemma dt_cached_wrong dirs dirs' : length dirs <> length dirs' -> fst (pareto_front (snd (pareto_front None dirs)) dirs') <> fst (pareto_front None dirs').
Proof. intros H E. cbn in E. apply (f_equal (@length _)) in E. rewrite !map_length in E. contradiction. Qed.

(* ---------- sizes ---------- *)
Lemma dt_size_raises n_var n_obj x : length x <> n_var -> dtlz2 n_var n_obj x = None.
Proof. intros H. unfold dtlz2. destruct (Nat.eqb_spec (length x) n_var); [contradiction|reflexivity]. Qed.
Lemma dt_k_ignored n n_obj k : (1 <= n)%nat -> dt_new (Some n) n_obj k = dt_new (Some n) n_obj None.
Proof. intros H. destruct n; [lia|]. reflexivity. Qed.
Lemma dt2_k_ignored n_obj k : dt2_new None n_obj k = dt2_new None n_obj None /\ exists z, dt2_new None n_obj k = Some (10%nat, z).
Proof. split; [reflexivity|]. cbn. eexists. reflexivity. Qed.
Lemma dt2_k_used n_obj k : (1 <= k)%nat -> dt2_new (Some None) (Some n_obj) (Some k) = Some ((k + n_obj - 1)%nat, Z.of_nat k).
Proof. intros H. destruct k; [lia|]. reflexivity. Qed.
Lemma dt_few_raises n_var n_obj x : (2 * n_var + 1 < n_obj)%nat -> dtlz2 n_var n_obj x = None.
Proof.
  intros H. unfold dtlz2. destruct (Nat.eqb_spec (length x) n_var) as [L|L]; [|reflexivity]. unfold dt_eval. cbv zeta. rewrite firstn_all2 by lia. apply (all_some_none _ _ (2 * n_var + 1)%nat); [apply in_seq; lia|]. unfold dt_obj. cbv zeta. replace (2 * n_var + 1)%nat with (S (2 * n_var)) by lia. unfold py_index. destruct (Z.ltb_spec (Z.of_nat (length x) - Z.of_nat (S (2 * n_var))) 0) as [K|K]; [|lia]. destruct (Z.ltb_spec (Z.of_nat (length x) + (Z.of_nat (length x) - Z.of_nat (S (2 * n_var)))) 0) as [K'|K']; [reflexivity|lia].
Qed.
Lemma all_some_nth {A B} (f : A -> option B) l r : all_some (map f l) = Some r -> forall i a, nth_error l i = Some a -> nth_error r i = f a.
Proof.
  revert r. induction l as [|b l IH]; intros r H [|i] a E; try discriminate; cbn in H, E; apply obind_Some in H; destruct H as (c & C & H); apply obind_Some in H; destruct H as (t & T & H); injection H as <-; cbn.
  - congruence.
  - apply (IH t T i a E).
Qed.
Lemma dt_few n_var n_obj x F : (1 <= n_var)%nat -> (n_var + 1 < n_obj)%nat -> dtlz2 n_var n_obj x = Some F -> length F = n_obj /\ nth_error F 1 = nth_error F (n_var + 1).
Proof.
  intros H0 H H1. unfold dtlz2 in H1. destruct (Nat.eqb_spec (length x) n_var) as [L|L]; [|discriminate]. unfold dt_eval in H1. cbv zeta in H1. rewrite firstn_all2 in H1 by lia. set (g := g2 (skipn (n_obj - 1) x)) in *. split.
  - clear - H1. revert H1. assert (G : forall l r, all_some (map (dt_obj x g) l) = Some r -> length r = length l). { induction l as [|a l IH]; intros r E; cbn in E; [injection E as <-; reflexivity|]. apply obind_Some in E. destruct E as (c & _ & E). apply obind_Some in E. destruct E as (t & T & E). injection E as <-. cbn. f_equal. auto. } intros E. apply G in E. rewrite seq_length in E. exact E.
  - assert (E : forall i, (i < n_obj)%nat -> nth_error F i = dt_obj x g i). { intros i Hi. apply (all_some_nth _ _ _ H1). rewrite (nth_error_nth' _ 0%nat) by (rewrite seq_length; lia). rewrite seq_nth by lia. reflexivity. }
    rewrite !E by lia. unfold dt_obj. cbv zeta. destruct (n_var + 1)%nat as [|m] eqn:Em; [lia|]. unfold slice_to, py_index. destruct (Z.ltb_spec (Z.of_nat (length x) - Z.of_nat 1) 0) as [K|K]; [lia|]. destruct (Z.ltb_spec (Z.of_nat (length x) - Z.of_nat (S m)) 0) as [K'|K']; [|lia]. destruct (Z.ltb_spec (Z.of_nat (length x) + (Z.of_nat (length x) - Z.of_nat (S m))) 0) as [K''|K'']; [lia|].
    replace (Z.of_nat (length x) + (Z.of_nat (length x) - Z.of_nat (S m)))%Z with (Z.of_nat (length x) - Z.of_nat 1)%Z by lia. reflexivity.
Qed.
