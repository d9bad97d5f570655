(** The public CEC'2017 functions and the classes of CEC'2008 (C81, C82). *)
From Coq Require Import List Bool Arith Reals Lia Lra Psatz.
From Verif Require Import BM_Model BM_Spec BM_Proofs BM_Final BM_Schwefel CE_Model CE_Spec CE_Proofs CE_Final.
Import ListNotations.
Open Scope R_scope.

(* ---------- the four groups ---------- *)
Lemma dims_simple k : (k <= 10)%nat -> cec17_dims k = rot_dims.
Proof. intros H. unfold cec17_dims. destruct (Nat.ltb_spec 10 k), (Nat.leb_spec k 20), (Nat.ltb_spec 28 k); cbn; try lia; reflexivity. Qed.
Lemma dims_hybrid k : (11 <= k <= 20)%nat -> cec17_dims k = perm_dims.
Proof. intros H. unfold cec17_dims. destruct (Nat.ltb_spec 10 k), (Nat.leb_spec k 20), (Nat.ltb_spec 28 k); cbn; try lia; reflexivity. Qed.
Lemma dims_comp k : (21 <= k <= 28)%nat -> cec17_dims k = rot_dims.
Proof. intros H. unfold cec17_dims. destruct (Nat.ltb_spec 10 k), (Nat.leb_spec k 20), (Nat.ltb_spec 28 k); cbn; try lia; reflexivity. Qed.
Lemma dims_last k : (29 <= k)%nat -> cec17_dims k = perm_dims.
Proof. intros H. unfold cec17_dims. destruct (Nat.ltb_spec 10 k), (Nat.leb_spec k 20), (Nat.ltb_spec 28 k); cbn; try lia; reflexivity. Qed.
Lemma dims_rot k nx : In nx (cec17_dims k) -> In nx rot_dims.
Proof. unfold cec17_dims. destruct (_ || _); [apply perm_rot|auto]. Qed.
Ltac leb_tac := repeat match goal with |- context [(?a <=? ?b)%nat] => destruct (Nat.leb_spec a b); try lia end.
Lemma cec_simple T k x : (k <= 10)%nat -> cec17 T k x = obind (lookup rot_dims (length x) (rot T (length x) (k - 1))) (fun m => obind (f_simple k m (firstn (length x) (shift T (k - 1))) x) (fun vx => Some (Fin (fst vx), snd vx))).
Proof. intros H. unfold cec17. leb_tac. reflexivity. Qed.
Lemma cec_hybrid T k x : (11 <= k <= 20)%nat -> cec17 T k x = obind (lookup rot_dims (length x) (rot T (length x) (k - 1))) (fun m => obind (lookup perm_dims (length x) (perm T (length x) (k - 11))) (fun q => obind (f_hybrid k m (firstn (length x) (shift T (k - 1))) q x) (fun v => Some (Fin v, x)))).
Proof. intros H. unfold cec17. leb_tac. reflexivity. Qed.
Lemma cec_comp T k x : (21 <= k <= 28)%nat -> cec17 T k x = obind (lookup rot_dims (length x) (rot_cf T (length x) (k - 21))) (fun ms => obind (f_comp k ms (shift_cf T (k - 21)) x) (fun v => Some (v, x))).
Proof. intros H. unfold cec17. leb_tac. reflexivity. Qed.
Lemma cec_last T k x : (29 <= k)%nat -> cec17 T k x = obind (lookup rot_dims (length x) (rot_cf T (length x) (k - 21))) (fun ms => obind (lookup perm_dims (length x) (perm_cf T (length x) (k - 29))) (fun qs => obind (f_comp_hybrid k ms (shift_cf T (k - 21)) qs x) (fun v => Some (v, x)))).
Proof. intros H. unfold cec17. leb_tac. reflexivity. Qed.
Lemma opt_len T k nx : well_formed T -> In nx rot_dims -> length (optimum T k nx) = nx.
Proof. intros (_ & W & _) H. unfold optimum. rewrite firstn_length. specialize (W (k - 1)%nat). apply dims_b in H. lia. Qed.

(* ---------- lower bound, kept argument, domain ---------- *)
Lemma cec17_low T k x v x' : (1 <= k <= 30)%nat -> cec17 T k x = Some (Fin v, x') -> 100 * INR k <= v.
Proof.
  intros Hk H. destruct (le_lt_dec k 10) as [K1|K1].
  { rewrite cec_simple in H by lia. apply obind_Some in H. destruct H as (m & _ & H). apply obind_Some in H. destruct H as ([w y] & A & H). injection H as <- _. apply f_simple_low in A. exact A. }
  destruct (le_lt_dec k 20) as [K2|K2].
  { rewrite cec_hybrid in H by lia. apply obind_Some in H. destruct H as (m & _ & H). apply obind_Some in H. destruct H as (q & _ & H). apply obind_Some in H. destruct H as (w & A & H). injection H as <- _. apply f_hybrid_low in A. exact A. }
  destruct (le_lt_dec k 28) as [K3|K3].
  { rewrite cec_comp in H by lia. apply obind_Some in H. destruct H as (m & _ & H). apply obind_Some in H. destruct H as (w & A & H). injection H as -> _. apply f_comp_verdict in A; [|lia]. destruct A as [(_ & A)|(_ & r & A & B)]; [discriminate|injection A as ->; lra]. }
  rewrite cec_last in H by lia. apply obind_Some in H. destruct H as (m & _ & H). apply obind_Some in H. destruct H as (q & _ & H). apply obind_Some in H. destruct H as (w & A & H). injection H as -> _. apply f_comp_hybrid_verdict in A; [|lia]. destruct A as [(_ & A)|(_ & r & A & B)]; [discriminate|injection A as ->; lra].
Qed.
Lemma cec17_kept T k x v x' : (1 <= k <= 30)%nat -> k <> 8%nat -> cec17 T k x = Some (v, x') -> x' = x.
Proof.
  intros Hk N8 H. destruct (le_lt_dec k 10) as [K1|K1].
  { rewrite cec_simple in H by lia. apply obind_Some in H. destruct H as (m & _ & H). apply obind_Some in H. destruct H as ([w y] & A & H). injection H as _ <-. apply f_simple_kept in A; auto. }
  destruct (le_lt_dec k 20) as [K2|K2].
  { rewrite cec_hybrid in H by lia. apply obind_Some in H. destruct H as (m & _ & H). apply obind_Some in H. destruct H as (q & _ & H). apply obind_Some in H. destruct H as (w & A & H). congruence. }
  destruct (le_lt_dec k 28) as [K3|K3].
  { rewrite cec_comp in H by lia. apply obind_Some in H. destruct H as (m & _ & H). apply obind_Some in H. destruct H as (w & A & H). congruence. }
  rewrite cec_last in H by lia. apply obind_Some in H. destruct H as (m & _ & H). apply obind_Some in H. destruct H as (q & _ & H). apply obind_Some in H. destruct H as (w & A & H). congruence.
Qed.
Lemma cec17_raises T k x : (1 <= k <= 30)%nat -> ~ In (length x) (cec17_dims k) -> cec17 T k x = None.
Proof.
  intros Hk N. destruct (le_lt_dec k 10) as [K1|K1].
  { rewrite dims_simple in N by lia. rewrite cec_simple by lia. rewrite lookup_out by exact N. reflexivity. }
  destruct (le_lt_dec k 20) as [K2|K2].
  { rewrite dims_hybrid in N by lia. rewrite cec_hybrid by lia. rewrite (lookup_out perm_dims) by exact N. destruct (lookup rot_dims _ _); reflexivity. }
  destruct (le_lt_dec k 28) as [K3|K3].
  { rewrite dims_comp in N by lia. rewrite cec_comp by lia. rewrite lookup_out by exact N. reflexivity. }
  rewrite dims_last in N by lia. rewrite cec_last by lia. rewrite (lookup_out perm_dims) by exact N. destruct (lookup rot_dims _ _); reflexivity.
Qed.
Lemma cec17_total T k x : well_formed T -> (1 <= k <= 20)%nat -> In (length x) (cec17_dims k) -> exists v x', cec17 T k x = Some (Fin v, x').
Proof.
  intros W Hk I. pose proof (dims_rot _ _ I) as I2. pose proof (dims_b _ I2) as B. pose proof (opt_len T k (length x) W I2) as L. destruct W as (W1 & _ & W3 & _). unfold optimum in L. destruct (le_lt_dec k 10) as [K1|K1].
  - rewrite cec_simple by lia. rewrite lookup_in by exact I2. cbn [obind]. destruct (f_simple_some k (rot T (length x) (k - 1)) (firstn (length x) (shift T (k - 1))) x (length x)) as (vx & ->); auto; [lia|]. cbn. eauto.
  - rewrite dims_hybrid in I by lia. rewrite cec_hybrid by lia. rewrite !lookup_in by auto. cbn [obind]. destruct (f_hybrid_some k (rot T (length x) (k - 1)) (firstn (length x) (shift T (k - 1))) (perm T (length x) (k - 11)) x (length x)) as (v & ->); auto; [lia|]. cbn. eauto.
Qed.
Lemma cec17_optimum T k nx : well_formed T -> (1 <= k <= 20)%nat -> k <> 9%nat -> has_schwefel k = false -> In nx (cec17_dims k) -> cec17 T k (optimum T k nx) = Some (Fin (100 * INR k), optimum T k nx).
Proof.
  intros W Hk N9 S I. pose proof (dims_rot _ _ I) as I2. pose proof (dims_b _ I2) as B. pose proof (opt_len T k nx W I2) as L. destruct W as (W1 & _ & W3 & _). destruct (le_lt_dec k 10) as [K1|K1].
  - rewrite cec_simple by lia. rewrite L. rewrite lookup_in by exact I2. cbn [obind]. fold (optimum T k nx). rewrite (f_simple_at k _ _ nx); auto; try lia. intros ->. discriminate.
  - rewrite dims_hybrid in I by lia. rewrite cec_hybrid by lia. rewrite L. rewrite !lookup_in by auto. cbn [obind]. fold (optimum T k nx). rewrite (f_hybrid_at k _ _ _ nx); auto. lia.
Qed.
Lemma cec17_schwefel T k nx : well_formed T -> has_schwefel k = true -> In nx (cec17_dims k) ->
  (forall x v x', cec17 T k x = Some (v, x') -> exists r, v = Fin r /\ 100 * INR k < r) /\
  exists v, cec17 T k (optimum T k nx) = Some (Fin v, optimum T k nx) /\ 100 * INR k < v <= 100 * INR k + INR nx * (2 / 10 ^ 5).
Proof.
  intros W S I. assert (Hk : (k = 10 \/ 11 <= k <= 20)%nat). { unfold has_schwefel in S. apply existsb_exists in S. destruct S as (y & Y & E). apply Nat.eqb_eq in E. subst y. cbn in Y. lia. }
  assert (G : forall x v x', cec17 T k x = Some (v, x') -> exists r, v = Fin r /\ 100 * INR k < r).
  { intros x v x' H. destruct Hk as [->|Hk].
    - rewrite cec_simple in H by lia. apply obind_Some in H. destruct H as (m & M & H). apply lookup_inv in M. destruct M as (_ & M). apply dims_b in M. apply obind_Some in H. destruct H as ([w y] & A & H). injection H as <- _. exists w. split; [reflexivity|]. cbn [f_simple] in A. apply obind_Some in A. destruct A as (z & Z & A). apply obind_Some in A. destruct A as (u & U & A). assert (Ew : w = u + 100 * INR 10) by congruence. rewrite Ew. apply rotated_len in Z. cbn [simple_fun] in U. apply ms_low in U. assert (0 < INR (length z)) by (apply lt_0_INR; lia). lra.
    - rewrite cec_hybrid in H by lia. apply obind_Some in H. destruct H as (m & _ & H). apply obind_Some in H. destruct H as (q & Q & H). apply lookup_inv in Q. destruct Q as (_ & Q). apply obind_Some in H. destruct H as (w & A & H). injection H as <- _. exists w. split; [reflexivity|]. apply f_hybrid_pos in A; auto. }
  split; [exact G|]. pose proof (dims_rot _ _ I) as I2. pose proof (opt_len T k nx W I2) as L. destruct W as (W1 & _ & W3 & _).
  assert (H : exists v, cec17 T k (optimum T k nx) = Some (Fin v, optimum T k nx) /\ v <= 100 * INR k + INR nx * (2 / 10 ^ 5)).
  { destruct Hk as [->|Hk].
    - rewrite cec_simple by lia. rewrite L. rewrite lookup_in by exact I2. cbn [obind]. fold (optimum T 10 nx). cbn [f_simple]. rewrite (rotated_self _ _ nx) by auto. cbn [obind simple_fun]. destruct (ms_0 nx) as (v & -> & Hv). cbn [obind fst snd]. eexists. split; [reflexivity|]. lra.
    - rewrite dims_hybrid in I by lia. rewrite cec_hybrid by lia. rewrite L. rewrite !lookup_in by auto. cbn [obind]. fold (optimum T k nx). destruct (f_hybrid_near k (rot T nx (k - 1)) (optimum T k nx) (perm T nx (k - 11)) nx) as (v & -> & Hv); auto. cbn [obind]. eauto. }
  destruct H as (v & H & Hv). exists v. split; [exact H|]. split; [|exact Hv]. destruct (G _ _ _ H) as (r & E & R1). injection E as <-. exact R1.
Qed.
Lemma cec17_levy T nx : well_formed T -> In nx rot_dims -> exists v, cec17 T 9 (optimum T 9 nx) = Some (Fin v, optimum T 9 nx) /\ 9005 / 10 < v.
Proof.
  intros W I. pose proof (opt_len T 9 nx W I) as L. pose proof (dims_b _ I). destruct W as (W1 & _). rewrite cec_simple by lia. rewrite L. rewrite lookup_in by exact I. cbn [obind]. fold (optimum T 9 nx). cbn [f_simple]. rewrite (rotated_self _ _ nx) by auto. cbn [obind simple_fun]. destruct (blev_0 nx) as (v & -> & Hv); [lia|]. cbn [obind fst snd]. eexists. split; [reflexivity|]. replace (INR 9) with 9 by (cbn; lra). lra.
Qed.
Lemma count_10 k : (comp_count k <= 10)%nat. Proof. unfold comp_count. do 29 (destruct k as [|k]; [cbn; lia|]). cbn. lia. Qed.
Lemma verdict_shift T k x v : (forall i, (10 <= length (shift_cf T i))%nat) -> comp_verdict k (shift_cf T (k - 21)) x v ->
  ((exists i, (i < comp_count k)%nat /\ x = comp_shift T k i (length x)) -> v = NaN) /\ ((forall i, (i < comp_count k)%nat -> x <> comp_shift T k i (length x)) -> exists r, v = Fin r /\ 100 * INR k < r).
Proof.
  intros Ls V. split.
  - intros (i & Hi & E). destruct V as [(_ & V)|(V & _)]; [exact V|]. exfalso. destruct (nth_ex (shift_cf T (k - 21)) i) as (s & S); [pose proof (count_10 k); specialize (Ls (k - 21)%nat); lia|]. apply (V i s Hi S). unfold comp_shift in E. rewrite (nth_error_nth _ _ [] S) in E. exact E.
  - intros N. destruct V as [((i & s & Hi & S & E) & _)|(_ & V)]; [|exact V]. exfalso. apply (N i Hi). unfold comp_shift. rewrite (nth_error_nth _ _ [] S). exact E.
Qed.
Lemma cec17_composition T k x : well_formed T -> (21 <= k <= 30)%nat -> In (length x) (cec17_dims k) ->
  exists v, cec17 T k x = Some (v, x) /\
  ((exists i, (i < comp_count k)%nat /\ x = comp_shift T k i (length x)) -> v = NaN) /\ ((forall i, (i < comp_count k)%nat -> x <> comp_shift T k i (length x)) -> exists r, v = Fin r /\ 100 * INR k < r).
Proof.
  intros W Hk I. pose proof (dims_rot _ _ I) as I2. pose proof (dims_b _ I2) as B. destruct W as (_ & _ & _ & W4 & W5 & W6). destruct (W4 (length x) (k - 21)%nat I2) as (A1 & A2). destruct (W5 (k - 21)%nat) as (B1 & B2). pose proof (count_10 k) as C10.
  assert (B3 : Forall (fun s => (length x <= length s)%nat) (shift_cf T (k - 21))) by (eapply Forall_impl; [|exact B2]; cbn; intros; lia).
  assert (G : forall i, (10 <= length (shift_cf T i))%nat) by (intros i; apply (W5 i)).
  destruct (le_lt_dec k 28) as [K3|K3].
  - rewrite cec_comp by lia. rewrite lookup_in by exact I2. cbn [obind]. assert (E : exists v, f_comp k (rot_cf T (length x) (k - 21)) (shift_cf T (k - 21)) x = Some v).
    { unfold f_comp. destruct (comp_loop_some (comp_funs k) (length x) (comp_tot k (length x) ltac:(lia)) (rot_cf T (length x) (k - 21)) (shift_cf T (k - 21)) x) as (r & ->); auto; [rewrite <- consts_len by lia; unfold comp_count in C10; lia|rewrite <- consts_len by lia; unfold comp_count in C10; lia|]. cbn. eauto. }
    destruct E as (v & E). rewrite E. cbn [obind]. exists v. split; [reflexivity|]. apply verdict_shift; [exact G|]. apply f_comp_verdict in E; [exact E|lia].
  - rewrite dims_last in I by lia. destruct (W6 (length x) (k - 29)%nat I) as (D1 & D2). rewrite cec_last by lia. rewrite !lookup_in by auto. cbn [obind]. assert (E : exists v, f_comp_hybrid k (rot_cf T (length x) (k - 21)) (shift_cf T (k - 21)) (perm_cf T (length x) (k - 29)) x = Some v).
    { unfold f_comp_hybrid. assert (L3 : length (comp_hybrids k) = 3%nat) by (assert (C : (k = 29 \/ k = 30)%nat) by lia; destruct C as [->| ->]; reflexivity).
      assert (Fh : Forall (fun h => (11 <= h <= 20)%nat) (comp_hybrids k)) by (assert (C : (k = 29 \/ k = 30)%nat) by lia; destruct C as [->| ->]; repeat (apply Forall_cons; [lia|]); apply Forall_nil).
      destruct (hybrid_loop_some (comp_hybrids k) (length x) Fh I (rot_cf T (length x) (k - 21)) (shift_cf T (k - 21)) (perm_cf T (length x) (k - 29)) x) as (r & ->); auto; try lia. cbn. eauto. }
    destruct E as (v & E). rewrite E. cbn [obind]. exists v. split; [reflexivity|]. apply verdict_shift; [exact G|]. apply f_comp_hybrid_verdict in E; [exact E|lia].
Qed.

(* ---------- f8 rounds the caller's vector ---------- *)
Lemma ncr_within x : forall s, length x = length s -> within_each (1 / 4) (map ncr_round (combine x s)) x.
Proof. induction x as [|a x IH]; intros [|b s] H; cbn in *; try discriminate; [constructor|]. constructor; [apply ncr_move|]. apply IH. lia. Qed.
Lemma cec17_f8 T x v x' : cec17 T 8 x = Some (v, x') -> within_each (1 / 4) x' x /\ cec17 T 8 x' = Some (v, x').
Proof.
  intros H. rewrite cec_simple in H by lia. apply obind_Some in H. destruct H as (m & M & H). apply obind_Some in H. destruct H as ([w y] & A & H). cbn [fst snd] in H. injection H as <- <-. cbn [f_simple] in A. apply obind_Some in A. destruct A as ([u z] & A & B). cbn [fst snd] in B. injection B as <- <-.
  destruct (ncr_same _ _ _ _ _ A) as (S1 & S2 & S3). split.
  - rewrite S3. apply ncr_within. unfold non_cont_rastrigin in A. destruct (Nat.eqb_spec (length x) (length (firstn (length x) (shift T (8 - 1))))) as [E|E]; [exact E|discriminate].
  - rewrite cec_simple by lia. rewrite S2. rewrite M. cbn [obind f_simple]. rewrite S1. reflexivity.
Qed.

Fixpoint put (n i : nat) (a : R) : list R := match n with 0%nat => [] | S n' => match i with 0%nat => a :: repeat 0 n' | S i' => 0 :: put n' i' a end end.
Lemma put_len n : forall i a, length (put n i a) = n. Proof. induction n; intros [|i] a; cbn; auto. rewrite repeat_length. reflexivity. Qed.
Lemma put_in n : forall i a b, In b (put n i a) -> b = a \/ b = 0.
Proof. induction n; intros [|i] a b; cbn; [tauto|tauto| |]; intros [H|H]; auto; [right; apply in_repeat in H; exact H|eauto]. Qed.
Lemma put_nth n : forall i a, (i < n)%nat -> nth_error (put n i a) i = Some a.
Proof. induction n; intros [|i] a H; cbn; try lia; auto. apply IHn. lia. Qed.
Lemma inside_put n i a : -100 <= a <= 100 -> inside (put n i a). Proof. intros H b I. apply put_in in I. destruct I as [->| ->]; lra. Qed.

Lemma side s : -80 <= s <= 80 -> (forall z : Z, 2 * s <> IZR z) -> 100 < ncr_round (100, s) \/ ncr_round (-100, s) < -100.
Proof.
  intros Hs N. set (z := Int_part (2 * s)). assert (Z1 : IZR z <= 2 * s < IZR z + 1) by (pose proof (base_Int_part (2 * s)); fold z in H; lra). assert (Z2 : IZR z < 2 * s) by (destruct Z1 as ([Z1|Z1] & _); [exact Z1|exfalso; apply (N z); lra]).
  unfold ncr_round. cbn [fst snd]. cbv zeta. destruct (Rlt_dec (1 / 2) (Rabs (100 - s))) as [K|K]; [|exfalso; apply K; rewrite Rabs_right; lra]. destruct (Rlt_dec (1 / 2) (Rabs (-100 - s))) as [K'|K']; [|exfalso; apply K'; rewrite Rabs_left; lra].
  destruct (Rle_dec (2 * s) (IZR z + 1 / 2)) as [D|D].
  - left. rewrite (rfloor_is _ (200 - z)) by (rewrite minus_IZR; lra). rewrite minus_IZR. lra.
  - right. rewrite (rfloor_is _ (-200 - z - 1)) by (rewrite !minus_IZR; lra). rewrite !minus_IZR. lra.
Qed.
Lemma cec17_leaves T nx i s : well_formed T -> In nx rot_dims -> nth_error (optimum T 8 nx) i = Some s -> -80 <= s <= 80 -> (forall z : Z, 2 * s <> IZR z) ->
  exists x v x', length x = nx /\ inside x /\ cec17 T 8 x = Some (v, x') /\ ~ inside x'.
Proof.
  intros W I E Hs N. pose proof (opt_len T 8 nx W I) as L. assert (Hi : (i < nx)%nat) by (rewrite <- L; apply nth_error_Some; congruence).
  assert (G : forall a, exists v, cec17 T 8 (put nx i a) = Some (v, map ncr_round (combine (put nx i a) (optimum T 8 nx)))).
  { intros a. rewrite cec_simple by lia. rewrite put_len. rewrite lookup_in by exact I. cbn [obind f_simple]. fold (optimum T 8 nx). destruct W as (W1 & _). destruct (ncr_some (put nx i a) (optimum T 8 nx) (rot T nx (8 - 1)) nx) as (v & ->); auto; [apply put_len|]. cbn. eauto. }
  assert (J : forall a, In (ncr_round (a, s)) (map ncr_round (combine (put nx i a) (optimum T 8 nx)))).
  { intros a. apply in_map. apply nth_error_In with (n := i). apply nth_comb; [apply put_nth; exact Hi|exact E]. }
  destruct (side s Hs N) as [D|D].
  - destruct (G 100) as (v & H). eexists _, v, _. split; [apply put_len|]. split; [apply inside_put|split; [exact H|]]; [lra|]. intros K. specialize (K _ (J 100)). lra.
  - destruct (G (-100)) as (v & H). eexists _, v, _. split; [apply put_len|]. split; [apply inside_put|split; [exact H|]]; [lra|]. intros K. specialize (K _ (J (-100))). lra.
Qed.

(* ---------- CEC'2008 ---------- *)
Lemma rmax_ge l a : In a l -> a <= rmax l.
Proof. induction l as [|b l IH]; intros H; [destruct H|]. cbn. destruct H as [->|H]; [apply Rmax_l|]. eapply Rle_trans; [apply IH; exact H|apply Rmax_r]. Qed.
Lemma rmax_nn l : 0 <= rmax l. Proof. induction l as [|b l IH]; cbn; [lra|]. eapply Rle_trans; [exact IH|apply Rmax_r]. Qed.
Lemma rmax_0 n : rmax (map Rabs (repeat 0 n)) = 0.
Proof. induction n; cbn; [reflexivity|]. unfold rmax in *. rewrite IHn, Rabs_R0. apply Rmax_left. lra. Qed.
Lemma core6 z : c08_core 6 z = ackley z.
Proof. destruct z as [|a z]; [reflexivity|]. unfold c08_core, ackley. cbv zeta. f_equal. set (n := INR (length (a :: z))). replace (rsum (map sq (a :: z)) / n) with (1 / n * rsum (map sq (a :: z))) by (unfold Rdiv; ring). replace (rsum (map (fun a0 : R => cos (2 * PI * a0)) (a :: z)) / n) with (1 / n * rsum (map (fun a0 : R => cos (2 * PI * a0)) (a :: z))) by (unfold Rdiv; ring). lra. Qed.
Lemma core5 z : c08_core 5 z = Some (griewank z).
Proof.
  unfold c08_core, griewank. f_equal. rewrite (rsum_ext (fun a => sq a / 4000) (fun a => / 4000 * sq a)) by (intros; unfold Rdiv; ring). rewrite rsum_scal. try lra.
Qed.
Lemma core4 z : c08_core 4 z = Some (rastrigin z).
Proof. unfold c08_core. f_equal. rewrite rastrigin_eq. apply rsum_ext. intros. lra. Qed.
Lemma core3 z : c08_core 3 z = Some (rosenbrock (map (fun a => a + 1) z)).
Proof. unfold c08_core, rosenbrock. cbv zeta. f_equal. apply rsum_ext. intros p _. unfold sq. ring. Qed.
Lemma core_facts k z : (1 <= k <= 6)%nat -> z <> [] -> exists v, c08_core k z = Some v /\ 0 <= v /\ (v = 0 -> k <> 3%nat \/ (2 <= length z)%nat -> z = repeat 0 (length z)) /\ (z = repeat 0 (length z) -> v = 0).
Proof.
  intros Hk Nz. assert (N0 : length z <> 0%nat) by (destruct z; [congruence|discriminate]). assert (C : (k = 1 \/ k = 2 \/ k = 3 \/ k = 4 \/ k = 5 \/ k = 6)%nat) by lia. destruct C as [->|[->|[->|[->|[->| ->]]]]].
  - eexists. split; [reflexivity|]. split; [apply sq_sum|]. split; [intros H _; apply sq_sum_inv; lra|]. intros ->. rewrite repeat0_sq. reflexivity.
  - destruct z as [|a z]; [congruence|]. eexists. split; [reflexivity|]. split; [apply rmax_nn|]. split.
    + intros H _. apply all_repeat. intros b Hb. assert (K : Rabs b <= rmax (map Rabs (a :: z))) by (apply rmax_ge, in_map; exact Hb). rewrite H in K. pose proof (Rabs_pos b). assert (Rabs b = 0) by lra. destruct (Req_EM_T b 0); [assumption|]. apply Rabs_no_R0 in n. lra.
    + intros ->. apply rmax_0.
  - rewrite core3. eexists. split; [reflexivity|]. split; [apply rosenbrock_nn|]. split.
    + intros H [K|K]; [congruence|]. assert (E : map (fun a => a + 1) z = repeat 1 (length (map (fun a => a + 1) z))) by (apply rosenbrock_inv; [rewrite map_length; exact K|lra]). apply all_repeat. intros a Ha. assert (Hb : In (a + 1) (map (fun a => a + 1) z)) by (apply (in_map (fun a => a + 1)); exact Ha). rewrite E in Hb. apply in_repeat in Hb. lra.
    + intros E. rewrite E. rewrite map_repeat. replace (0 + 1) with 1 by lra. apply rosenbrock_1.
  - rewrite core4. eexists. split; [reflexivity|]. split; [apply rastrigin_nn|]. split; [intros H _; apply rastrigin_inv; lra|]. intros E. rewrite E. apply rastrigin_0.
  - rewrite core5. eexists. split; [reflexivity|]. split; [apply griewank_nn|]. split; [intros H _; apply griewank_inv; lra|]. intros E. rewrite E. apply griewank_0.
  - rewrite core6. destruct (ackley_some z Nz) as (v & A & B & D). exists v. split; [exact A|]. split; [exact B|]. split; [auto|]. intros E. rewrite E in A. rewrite ackley_0 in A by exact N0. congruence.
Qed.
Lemma vsub_zero_list x s d : vsub x s = Some d -> (d = repeat 0 (length d) <-> x = s).
Proof.
  intros H. split; intros E.
  - apply (vsub_zero _ _ _ H). rewrite E. apply repeat0_sq.
  - subst. rewrite vsub_self in H. injection H as <-. rewrite repeat_length. reflexivity.
Qed.
Lemma c08_main k data nx : (1 <= k <= 6)%nat -> (1 <= nx <= 1000)%nat -> (1000 <= length data)%nat ->
  c08_global k data nx = Some (firstn nx data, c08_bias k) /\ length (firstn nx data) = nx /\
  (forall x, length x = nx -> exists v, c08_fit k data x = Some v /\ c08_bias k <= v /\ (v = c08_bias k -> k <> 3%nat \/ (2 <= nx)%nat -> x = firstn nx data)).
Proof.
  intros Hk Hn Hd. assert (L : length (firstn nx data) = nx) by (rewrite firstn_length; lia).
  assert (G : forall x, length x = nx -> exists v, c08_fit k data x = Some v /\ c08_bias k <= v /\ (v = c08_bias k -> k <> 3%nat \/ (2 <= nx)%nat -> x = firstn nx data) /\ (x = firstn nx data -> v = c08_bias k)).
  { intros x Lx. unfold c08_fit. rewrite Lx. destruct (Nat.ltb_spec 1000 nx) as [K|K]; [lia|]. destruct (vsub_some x (firstn nx data)) as (z & Z & Lz); [congruence|]. rewrite Z. cbn [obind].
    destruct (core_facts k z Hk) as (v & A & B & C & D); [intros ->; cbn in Lz; lia|]. rewrite A. cbn [obind]. exists (v + c08_bias k). split; [reflexivity|]. split; [lra|]. destruct (vsub_zero_list _ _ _ Z) as (Z1 & Z2). split.
    - intros E H. apply Z1. apply C; [lra|]. rewrite Lz, Lx. exact H.
    - intros E. rewrite D; [lra|]. apply Z2. exact E. }
  split; [|split; [exact L|]].
  - unfold c08_global. cbv zeta. destruct (G _ L) as (v & -> & _ & _ & E). cbn. rewrite (E eq_refl). reflexivity.
  - intros x Lx. destruct (G x Lx) as (v & A & B & C & _). eauto.
Qed.
Lemma c08_large k data x : (1000 < length x)%nat -> c08_fit k data x = Some 1.
Proof. intros H. unfold c08_fit. destruct (Nat.ltb_spec 1000 (length x)); [reflexivity|lia]. Qed.
Lemma c08_global_short k data nx : (1 <= k <= 6)%nat -> length data = 1000%nat -> (1000 < nx)%nat -> exists v, c08_global k data nx = Some (data, v) /\ v = c08_bias k /\ v <> 1 /\ length data <> nx.
Proof.
  intros Hk Ld Hn. unfold c08_global. cbv zeta. rewrite firstn_all2 by lia. destruct (c08_main k data 1000 Hk ltac:(lia) ltac:(lia)) as (A & B & C). destruct (C data Ld) as (v & E & F & G). unfold c08_global in A. cbv zeta in A. rewrite firstn_all2 in A by lia. rewrite E in A |- *. cbn [obind] in A |- *. injection A as A. exists v. split; [reflexivity|]. split; [exact A|]. split; [|lia]. rewrite A.
  assert (C6 : (k = 1 \/ k = 2 \/ k = 3 \/ k = 4 \/ k = 5 \/ k = 6)%nat) by lia. destruct C6 as [->|[->|[->|[->|[->| ->]]]]]; cbn; lra.
Qed.
