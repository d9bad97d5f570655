(** Proofs about Latin hypercube sampling. *)
From Coq Require Import List Arith ZArith QArith Qabs Qround Bool Lia Lqa Permutation.
From Verif Require Import Base BaseFacts Space_Model Space_Spec Space_Facts Opt_Model Opt_Spec Opt_Facts Opt_Facts2
  Pop_Model Pop_Spec Pop_Proofs Swarm_Model HHO_Model P2_Model SG_Model SG_Spec.
Import ListNotations.
Open Scope nat_scope.

Lemma shuffle_perm {A} sh (l : list A) : Permutation (shuffle sh l) l.
Proof.
  unfold shuffle. destruct (sample_total (map sh (seq 0 (length l))) l) as (r & E); [rewrite map_length, seq_length; auto|].
  rewrite E. apply sample_perm in E. destruct E as (L & rest & P). rewrite map_length, seq_length in L.
  assert (rest = []) as -> by (apply Permutation_length in P; rewrite app_length in P; destruct rest; auto; simpl in P; lia).
  rewrite app_nil_r in P. symmetry. auto.
Qed.

Definition lh_pt (N : nat) (u : nat -> Q) (d : dimn) (j : nat) : Q := ((qnat j + u j) / qnat N * (d_hi d - d_lo d) + d_lo d)%Q.

Lemma lh_column_perm N u sh d : Permutation (lh_column N u sh d) (map (lh_pt N u d) (seq 0 N)).
Proof.
  unfold lh_column. rewrite shuffle_perm, map_map. apply Permutation_refl.
Qed.
Lemma lh_column_length N u sh d : length (lh_column N u sh d) = N.
Proof. rewrite (Permutation_length (lh_column_perm N u sh d)), map_length, seq_length. auto. Qed.
Lemma lh_columns_nth N u sh ds : forall i c d, nth_error ds c = Some d ->
  nth_error (lh_columns N u sh i ds) c = Some (lh_column N (u (i + c)) (sh (i + c)) d).
Proof.
  induction ds as [|d0 ds IH]; intros i [|c] d H; simpl in H; try discriminate; cbn [lh_columns nth_error].
  - inversion H; subst. rewrite Nat.add_0_r. auto.
  - rewrite (IH (S i) c d H). replace (i + S c) with (S i + c) by lia. auto.
Qed.
Lemma lh_columns_length N u sh ds : forall i, length (lh_columns N u sh i ds) = length ds.
Proof. induction ds; intros i; simpl; auto. Qed.

Lemma nth_nth_error {A} (l : list A) k x0 : k < length l -> nth_error l k = Some (nth k l x0).
Proof. apply nth_error_nth'. Qed.

Lemma latin_rows N u sh ds rows : latin N u sh ds = Some rows ->
  1 <= N /\ Forall (fun d => (d_lo d <= d_hi d)%Q) ds /\ length rows = N /\
  (forall k r, nth_error rows k = Some r -> length r = length ds) /\
  forall c d, nth_error ds c = Some d -> forall k r, nth_error rows k = Some r ->
     exists x, nth_error r c = Some x /\ nth_error (lh_column N (u c) (sh c) d) k = Some x.
Proof.
  unfold latin. destruct (N =? 0) eqn:EN; [discriminate|]. apply Nat.eqb_neq in EN. cbn [orb].
  destruct (existsb _ ds) eqn:EE; [discriminate|]. intros H. inversion H; subst rows; clear H.
  split; [lia|]. split.
  { apply Forall_forall. intros d Hd. destruct (Qltb (d_hi d) (d_lo d)) eqn:E.
    - assert (existsb (fun d => Qltb (d_hi d) (d_lo d)) ds = true) by (apply existsb_exists; eauto). congruence.
    - qprop. auto. }
  split; [rewrite map_length, seq_length; auto|]. split.
  - intros k r H. rewrite nth_error_map in H. destruct (nth_error (seq 0 N) k); [|discriminate]. inversion H. rewrite map_length, lh_columns_length. auto.
  - intros c d Hd k r H. rewrite nth_error_map in H. destruct (nth_error (seq 0 N) k) as [k0|] eqn:Ek; [|discriminate]. inversion H; subst r; clear H.
    assert (k < N) by (rewrite <- (seq_length N 0); apply nth_error_Some; congruence).
    assert (k0 = k). { pose proof (nth_error_nth _ _ 0 Ek). rewrite seq_nth in H0 by auto. lia. } subst k0.
    rewrite nth_error_map, (lh_columns_nth N u sh ds 0 c d Hd). cbn [option_map Nat.add].
    eexists. split; eauto. apply nth_nth_error. rewrite lh_column_length. auto.
Qed.

Lemma latin_total N u sh ds : 1 <= N -> Forall (fun d => (d_lo d <= d_hi d)%Q) ds -> exists rows, latin N u sh ds = Some rows.
Proof.
  intros HN F. unfold latin. destruct (N =? 0) eqn:E; [apply Nat.eqb_eq in E; lia|]. cbn [orb].
  destruct (existsb _ ds) eqn:EE; eauto. apply existsb_exists in EE. destruct EE as (d & Hd & E1). qprop.
  rewrite Forall_forall in F. specialize (F d Hd). lra.
Qed.

Lemma qnat_S k : (qnat (S k) == qnat k + 1)%Q.
Proof. unfold qnat. rewrite Nat2Z.inj_succ. unfold Z.succ. rewrite inject_Z_plus. reflexivity. Qed.
Lemma qnat_le a b : a <= b -> (qnat a <= qnat b)%Q.
Proof. intros. unfold qnat. rewrite <- Zle_Qle. lia. Qed.
Lemma qnat_0 a : (0 <= qnat a)%Q.
Proof. apply (qnat_le 0 a). lia. Qed.
Lemma qnat_inv N : 1 <= N -> (0 < / qnat N)%Q /\ (qnat N * / qnat N == 1)%Q.
Proof.
  intros H. assert (0 < qnat N)%Q by (pose proof (qnat_le 1 N H); change (qnat 1) with 1%Q in *; lra).
  split; [apply Qinv_lt_0_compat; auto|]. apply Qmult_inv_r. lra.
Qed.

Lemma lh_pt_stratum N u d j : 1 <= N -> (d_lo d <= d_hi d)%Q -> (0 <= u j < 1)%Q ->
  (d_lo d + (d_hi d - d_lo d) * qnat j / qnat N <= lh_pt N u d j)%Q /\
  ((d_lo d < d_hi d)%Q -> lh_pt N u d j < d_lo d + (d_hi d - d_lo d) * qnat (S j) / qnat N)%Q.
Proof.
  intros HN Hd (U0 & U1). unfold lh_pt. destruct (qnat_inv N HN) as (I0 & I1). unfold Qdiv. set (iN := (/ qnat N)%Q) in *.
  set (w := (d_hi d - d_lo d)%Q). assert (W0 : (0 <= w)%Q) by (unfold w; lra).
  assert (P : (0 <= u j * iN * w)%Q) by (apply Qmult_le_0_compat; auto; apply Qmult_le_0_compat; auto; lra).
  split.
  - assert (((qnat j + u j) * iN * w + d_lo d == d_lo d + w * qnat j * iN + u j * iN * w)%Q) as -> by ring. lra.
  - intros Hl. rewrite qnat_S. assert (W1 : (0 < w)%Q) by (unfold w; lra).
    assert (P2 : (0 < (1 - u j) * iN * w)%Q) by (apply Qmult_lt_0_compat; auto; apply Qmult_lt_0_compat; auto; lra).
    assert ((d_lo d + w * (qnat j + 1) * iN == ((qnat j + u j) * iN * w + d_lo d) + (1 - u j) * iN * w)%Q) as -> by ring. lra.
Qed.

Lemma stratum_mono N (lo hi : Q) a b : 1 <= N -> (lo <= hi)%Q -> a <= b ->
  (lo + (hi - lo) * qnat a / qnat N <= lo + (hi - lo) * qnat b / qnat N)%Q.
Proof.
  intros HN Hd Hab. destruct (qnat_inv N HN) as (I0 & _). unfold Qdiv.
  assert ((hi - lo) * qnat a * / qnat N <= (hi - lo) * qnat b * / qnat N)%Q; [|lra].
  apply Qmult_le_compat_r; [|lra]. assert (H : (qnat a <= qnat b)%Q) by (apply qnat_le; auto).
  rewrite (Qmult_comm _ (qnat a)), (Qmult_comm _ (qnat b)). apply Qmult_le_compat_r; auto. lra.
Qed.

Lemma stratum_unique N lo hi a b x : 1 <= N -> (lo <= hi)%Q -> stratum lo hi N a x -> stratum lo hi N b x -> a = b.
Proof.
  unfold stratum. fold (qnat a) (qnat b) (qnat N) (qnat (S a)) (qnat (S b)). intros HN Hd (A1 & A2) (B1 & B2).
  destruct (Nat.lt_trichotomy a b) as [H|[H|H]]; auto.
  - pose proof (stratum_mono N lo hi (S a) b HN Hd H). lra.
  - pose proof (stratum_mono N lo hi (S b) a HN Hd H). lra.
Qed.

Lemma NoDup_map_on {A B} (f : A -> B) l : NoDup l -> (forall a b, In a l -> In b l -> f a = f b -> a = b) -> NoDup (map f l).
Proof.
  induction l as [|x l IH]; intros N H; simpl; constructor; inversion N; subst.
  - rewrite in_map_iff. intros (y & Ey & Hy). assert (y = x) by (apply H; simpl; auto). subst. auto.
  - apply IH; auto. intros a b Ha Hb. apply H; simpl; auto.
Qed.

Lemma column_stratified N u sh d : 1 <= N -> (d_lo d < d_hi d)%Q -> (forall j, 0 <= u j < 1)%Q ->
  forall j, j < N -> exists k x, nth_error (lh_column N u sh d) k = Some x /\ stratum (d_lo d) (d_hi d) N j x /\
    forall k' x', nth_error (lh_column N u sh d) k' = Some x' -> stratum (d_lo d) (d_hi d) N j x' -> k' = k.
Proof.
  intros HN Hd HU j Hj. pose proof (lh_column_perm N u sh d) as P.
  assert (St : forall i, stratum (d_lo d) (d_hi d) N i (lh_pt N u d i)).
  { intros i. destruct (lh_pt_stratum N u d i HN ltac:(lra) (HU i)) as (A & B). split; [exact A|exact (B Hd)]. }
  assert (ND : NoDup (lh_column N u sh d)).
  { apply (Permutation_NoDup (Permutation_sym P)). apply NoDup_map_on; [apply seq_NoDup|]. intros a b _ _ E.
    apply (stratum_unique N (d_lo d) (d_hi d) a b (lh_pt N u d a)); auto; [lra|rewrite E; auto]. }
  assert (Hin : In (lh_pt N u d j) (lh_column N u sh d)). { apply (Permutation_in _ (Permutation_sym P)). apply in_map. apply in_seq. lia. }
  apply In_nth_error in Hin. destruct Hin as (k & Ek). exists k, (lh_pt N u d j). split; auto. split; auto.
  intros k' x' Ek' Sx'. pose proof (nth_error_In _ _ Ek') as Hin. apply (Permutation_in _ P) in Hin. apply in_map_iff in Hin. destruct Hin as (j' & <- & _).
  assert (j' = j) by (apply (stratum_unique N (d_lo d) (d_hi d) j' j (lh_pt N u d j')); auto; lra). subst j'.
  rewrite NoDup_nth_error in ND. apply ND; [apply nth_error_Some; congruence|congruence].
Qed.

Lemma lh_pt_inside N u d j : 1 <= N -> j < N -> (d_lo d <= d_hi d)%Q -> (0 <= u j <= 1)%Q -> (d_lo d <= lh_pt N u d j <= d_hi d)%Q.
Proof.
  intros HN Hj Hd (U0 & U1). unfold lh_pt. destruct (qnat_inv N HN) as (I0 & I1). unfold Qdiv. set (iN := (/ qnat N)%Q) in *.
  assert (T : (0 <= (qnat j + u j) * iN)%Q) by (apply Qmult_le_0_compat; [pose proof (qnat_0 j); lra|lra]).
  assert (T1 : ((qnat j + u j) * iN <= 1)%Q). { rewrite <- I1. apply Qmult_le_compat_r; [|lra]. pose proof (qnat_le (S j) N Hj). rewrite qnat_S in H. lra. }
  set (t := ((qnat j + u j) * iN)%Q) in *. clearbody t. assert (W0 : (0 <= d_hi d - d_lo d)%Q) by lra. revert W0. set (w := (d_hi d - d_lo d)%Q). intros W0.
  assert (A : (0 <= t * w)%Q) by (apply Qmult_le_0_compat; auto).
  assert (B : (0 <= (1 - t) * w)%Q) by (apply Qmult_le_0_compat; lra).
  assert ((1 - t) * w == w - t * w)%Q as E by ring. rewrite E in B. unfold w in *. split; lra.
Qed.

Lemma latin_inside N u sh ds rows : (forall i j, 0 <= u i j <= 1)%Q -> latin N u sh ds = Some rows -> Forall (inside (dim_bounds ds)) rows.
Proof.
  intros HU H. apply latin_rows in H. destruct H as (HN & F & L & Lr & C). apply Forall_forall. intros r Hr. apply In_nth_error in Hr. destruct Hr as (k & Ek).
  pose proof (Lr _ _ Ek) as Lrr. specialize (fun c d Hd => C c d Hd k r Ek).
  assert (Q1 : forall c d, nth_error ds c = Some d -> exists x, nth_error r c = Some x /\ (d_lo d <= x <= d_hi d)%Q).
  { intros c d Hd. destruct (C c d Hd) as (x & E1 & E2). exists x. split; auto. apply nth_error_In in E2.
    apply (Permutation_in _ (lh_column_perm N (u c) (sh c) d)) in E2. apply in_map_iff in E2. destruct E2 as (j & <- & Hj). apply in_seq in Hj.
    apply lh_pt_inside; auto; [lia|]. rewrite Forall_forall in F. apply F. eapply nth_error_In; eauto. }
  clear - Lrr Q1. unfold inside, dim_bounds. revert r Lrr Q1. induction ds as [|d ds IH]; intros [|x r] L Q1; simpl in L; try discriminate; simpl; constructor.
  - destruct (Q1 0 d eq_refl) as (y & E & B). simpl in E. inversion E; subst. auto.
  - apply IH; [lia|]. intros c d' H. apply (Q1 (S c) d' H).
Qed.

Lemma latin_stratified N u sh ds rows c d : unit_draws u -> latin N u sh ds = Some rows -> nth_error ds c = Some d -> (d_lo d < d_hi d)%Q ->
  one_per_stratum (d_lo d) (d_hi d) N c rows.
Proof.
  intros HU H Hd Hl j Hj. apply latin_rows in H. destruct H as (HN & F & L & Lr & C).
  destruct (column_stratified N (u c) (sh c) d HN Hl (HU c) j Hj) as (k & x & E1 & E2 & E3).
  assert (Hk : k < N) by (rewrite <- (lh_column_length N (u c) (sh c) d); apply nth_error_Some; congruence).
  destruct (nth_error rows k) as [r|] eqn:Er; [|apply nth_error_None in Er; lia].
  destruct (C c d Hd k r Er) as (x1 & A1 & A2). rewrite E1 in A2. inversion A2; subst x1.
  exists k, x. split; [eauto|]. intros k' r' x' B1 B2 B3. destruct (C c d Hd k' r' B1) as (x2 & D1 & D2). rewrite B2 in D1. inversion D1; subst x2. eauto.
Qed.

(** Different rows of a Latin hypercube are different points. *)
Lemma latin_distinct N u sh ds rows d : unit_draws u -> latin N u sh ds = Some rows -> nth_error ds 0 = Some d -> (d_lo d < d_hi d)%Q ->
  distinct_rows rows.
Proof.
  intros HU H Hd Hl i j x y Hij Hi Hj Heq.
  pose proof (latin_stratified N u sh ds rows 0 d HU H Hd Hl) as S1.
  apply latin_rows in H. destruct H as (HN & F & L & Lr & C).
  destruct (C 0 d Hd i x Hi) as (a & A1 & A2). destruct (C 0 d Hd j y Hj) as (b & B1 & B2).
  assert (Eab : (a == b)%Q). { destruct Heq; [discriminate|]. simpl in A1, B1. inversion A1; inversion B1; subst. auto. }
  apply nth_error_In in A2. apply (Permutation_in _ (lh_column_perm N (u 0) (sh 0) d)) in A2. apply in_map_iff in A2. destruct A2 as (p & Ep & Hp). apply in_seq in Hp.
  assert (Sa : stratum (d_lo d) (d_hi d) N p a). { rewrite <- Ep. destruct (lh_pt_stratum N (u 0) d p HN ltac:(lra) (HU 0 p)) as (U1 & U2). split; [exact U1|exact (U2 Hl)]. }
  assert (Sb : stratum (d_lo d) (d_hi d) N p b). { unfold stratum in *. rewrite <- Eab. auto. }
  destruct (S1 p ltac:(lia)) as (k & z & _ & K). pose proof (K i x a Hi A1 Sa). pose proof (K j y b Hj B1 Sb). lia.
Qed.

(* ---------- rounding ---------- *)
Lemma py_round_near q : (inject_Z (py_round q) - (1#2) <= q <= inject_Z (py_round q) + (1#2))%Q.
Proof.
  unfold py_round. pose proof (Qfloor_le q). pose proof (Qlt_floor q). rewrite inject_Z_plus in H0. change (inject_Z 1) with 1%Q in H0.
  destruct (Qcompare (q - inject_Z (Qfloor q)) (1#2)) eqn:E.
  - apply Qeq_alt in E. destruct (Z.even _); try rewrite inject_Z_plus; change (inject_Z 1) with 1%Q; lra.
  - apply Qlt_alt in E. lra.
  - apply Qgt_alt in E. rewrite inject_Z_plus; change (inject_Z 1) with 1%Q; lra.
Qed.
Lemma py_round_inside q lo hi : is_int lo -> is_int hi -> (lo <= q <= hi)%Q -> (lo <= inject_Z (py_round q) <= hi)%Q.
Proof.
  intros (a & Ha) (b & Hb) (H1 & H2). pose proof (py_round_near q) as (N1 & N2). rewrite Ha, Hb in *. rewrite <- !Zle_Qle.
  set (z := py_round q) in *. clearbody z. split.
  - assert (H : (inject_Z a < inject_Z (z + 1))%Q) by (rewrite inject_Z_plus; change (inject_Z 1) with 1%Q; lra). rewrite <- Zlt_Qlt in H. lia.
  - assert (H : (inject_Z z < inject_Z (b + 1))%Q) by (rewrite inject_Z_plus; change (inject_Z 1) with 1%Q; lra). rewrite <- Zlt_Qlt in H. lia.
Qed.

Lemma round_feasible ds x : wf_dims ds -> inside (dim_bounds ds) x -> feasible ds (map2 (fun d x => if d_int d then inject_Z (py_round x) else x) ds x).
Proof.
  intros W H. unfold inside, dim_bounds in H. revert x H. induction W as [|d ds (W1 & W2) W IH]; intros x H; simpl in H; inversion H; subst; cbn [map2]; constructor.
  - cbn [fst snd] in *. destruct (d_int d).
    + destruct (W2 eq_refl) as (I1 & I2). destruct (py_round_inside y (d_lo d) (d_hi d)); auto; try lra. split; auto. split; auto. intros _. exists (py_round y). reflexivity.
    + destruct H2. split; auto. split; auto. discriminate.
  - apply IH; auto.
Qed.

Lemma hawk_sample_ok N dr ds rows : wf_dims ds -> (forall i j, 0 <= lh_u dr i j <= 1)%Q -> hawk_sample N dr ds = Some rows ->
  length rows = N /\ Forall (feasible ds) rows.
Proof.
  intros W HU H. unfold hawk_sample in H. apply bind_Some in H. destruct H as (r & E & H). inversion H; subst rows; clear H. split.
  - rewrite map_length. apply latin_rows in E. apply E.
  - apply latin_inside in E; auto. apply Forall_map. eapply Forall_impl; [|exact E]. intros x Hx. apply round_feasible; auto.
Qed.
Lemma hawk_sample_total N dr ds : wf_dims ds -> 1 <= N -> exists rows, hawk_sample N dr ds = Some rows.
Proof.
  intros W HN. unfold hawk_sample. destruct (latin_total N (lh_u dr) (lh_sh dr) ds HN) as (r & ->); [|cbn [bind]; eauto].
  eapply Forall_impl; [|exact W]. intros d (A & _). auto.
Qed.
(** Float coordinates keep the stratification. *)
Lemma hawk_sample_stratified N dr ds rows c d : unit_draws (lh_u dr) -> hawk_sample N dr ds = Some rows -> nth_error ds c = Some d ->
  d_int d = false -> (d_lo d < d_hi d)%Q -> one_per_stratum (d_lo d) (d_hi d) N c rows.
Proof.
  intros HU H Hd Hi Hl. unfold hawk_sample in H. apply bind_Some in H. destruct H as (r & E & H). inversion H; subst rows; clear H.
  pose proof (latin_stratified _ _ _ _ _ c d HU E Hd Hl) as S1. apply latin_rows in E. destruct E as (_ & _ & _ & Lr & _).
  assert (M : forall (ds : list dimn) x, length x = length ds -> forall c d, nth_error ds c = Some d -> d_int d = false ->
     nth_error (map2 (fun d x => if d_int d then inject_Z (py_round x) else x) ds x) c = nth_error x c).
  { clear. induction ds as [|d0 ds IH]; intros [|y x] L [|c] d H Hi; simpl in *; try discriminate; auto.
    - inversion H; subst. rewrite Hi. auto.
    - apply (IH x ltac:(lia) c d); auto. }
  intros j Hj. destruct (S1 j Hj) as (k & x & (r1 & A1 & A2 & A3) & K). exists k, x. split.
  - eexists. split; [rewrite nth_error_map, A1; reflexivity|]. split; auto. rewrite (M ds r1 (Lr _ _ A1) c d Hd Hi). auto.
  - intros k' r' x' B1 B2 B3. rewrite nth_error_map in B1. destruct (nth_error r k') as [r2|] eqn:E2; [|discriminate]. inversion B1; subst r'; clear B1.
    rewrite (M ds r2 (Lr _ _ E2) c d Hd Hi) in B2. eauto.
Qed.
