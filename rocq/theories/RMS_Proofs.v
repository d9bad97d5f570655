From Coq Require Import List Arith ZArith QArith Lia Lqa Bool Permutation Field Qfield.
From Verif Require Import Base BaseFacts Opt_Model Opt_Facts Opt_Facts2 RMS_Model RMS_Spec.
Import ListNotations.
Open Scope nat_scope.

Lemma rq_S n : (rq (S n) == rq n + 1)%Q.
Proof. unfold rq. rewrite Nat2Z.inj_succ. unfold Z.succ. rewrite inject_Z_plus. reflexivity. Qed.
Lemma rq_add a b : (rq (a + b) == rq a + rq b)%Q.
Proof. unfold rq. rewrite Nat2Z.inj_add, inject_Z_plus. reflexivity. Qed.
Lemma rq_nonneg n : (0 <= rq n)%Q.
Proof. unfold rq. change 0%Q with (inject_Z 0). rewrite <- Zle_Qle. lia. Qed.
Lemma rq_pos n : 0 < n -> (0 < rq n)%Q.
Proof. unfold rq. intros. change 0%Q with (inject_Z 0). rewrite <- Zlt_Qlt. lia. Qed.

Lemma rsum_app a b : (rsum (a ++ b) == rsum a + rsum b)%Q.
Proof. induction a as [|x a IH]; simpl; [ring|]. rewrite IH. ring. Qed.
Lemma rsum_perm a b : Permutation a b -> (rsum a == rsum b)%Q.
Proof. induction 1; simpl; [reflexivity|rewrite IHPermutation; reflexivity|ring|etransitivity; eauto]. Qed.

Definition sq (x : Q) : Q := (x * x)%Q.
Lemma rsum_dev m xs : (rsum (map (fun x => (x - m) * (x - m)) xs) == rsum (map sq xs) - 2 * m * rsum xs + rq (length xs) * m * m)%Q.
Proof.
  induction xs as [|x xs IH]; [simpl; unfold rq; simpl; ring|]. cbn [map rsum fold_right length]. fold rsum.
  change (fold_right Qplus 0%Q) with rsum. rewrite IH, rq_S. unfold sq. ring.
Qed.
Lemma sq_nonneg x : (0 <= x * x)%Q.
Proof.
  destruct (Qlt_le_dec x 0).
  - setoid_replace (x * x)%Q with (- x * - x)%Q by ring. apply Qmult_le_0_compat; lra.
  - apply Qmult_le_0_compat; auto.
Qed.
Lemma rsum_dev_nonneg m xs : (0 <= rsum (map (fun x => (x - m) * (x - m)) xs))%Q.
Proof.
  induction xs as [|x xs IH]; simpl; [lra|]. pose proof (sq_nonneg (x - m)). lra.
Qed.

Lemma pooled_iff w m0 v0 xs m v : pooled w m0 v0 xs m v <->
  ((w + rq (length xs)) * m == w * m0 + rsum xs /\
   (w + rq (length xs)) * v + (w + rq (length xs)) * m * m == w * (v0 + m0 * m0) + rsum (map sq xs))%Q.
Proof.
  unfold pooled. rewrite rsum_dev. set (n := rq (length xs)). set (S1 := rsum xs). set (S2 := rsum (map sq xs)). split; intros [H1 H2]; split; auto.
  - rewrite H2. setoid_replace S1 with ((w + n) * m - w * m0)%Q by (rewrite H1; ring). ring.
  - setoid_replace S2 with ((w + n) * v + (w + n) * m * m - w * (v0 + m0 * m0))%Q by (rewrite H2; ring).
    setoid_replace S1 with ((w + n) * m - w * m0)%Q by (rewrite H1; ring). ring.
Qed.

Lemma np_moments xs : xs <> [] -> moments xs (np_mean xs) (np_var xs).
Proof.
  intros H. unfold moments, np_var. assert (P : (0 < rq (length xs))%Q) by (apply rq_pos; destruct xs; simpl; [congruence|lia]).
  set (mu := np_mean xs). split.
  - unfold mu, np_mean. field. lra.
  - unfold np_mean. rewrite map_length. field. lra.
Qed.

Lemma from_moments_ok w m0 v0 xs m v ys bm bv m' v' : (0 <= w)%Q -> ys <> [] ->
  pooled w m0 v0 xs m v -> moments ys bm bv ->
  from_moments m v (w + rq (length xs)) bm bv (rq (length ys)) = (m', v') ->
  pooled w m0 v0 (xs ++ ys) m' v'.
Proof.
  intros Hw Hy P [B1 B2] E. rewrite pooled_iff in *. destruct P as [P1 P2]. unfold from_moments in E. inversion E; subst m' v'; clear E.
  assert (Hb : (0 < rq (length ys))%Q) by (apply rq_pos; destruct ys; simpl; [congruence|lia]).
  pose proof (rq_nonneg (length xs)) as Hx. rewrite rsum_dev in B2.
  rewrite app_length, rq_add, map_app, !rsum_app. set (b := rq (length ys)) in *. set (W := (w + rq (length xs))%Q) in *.
  set (S1 := rsum xs) in *. set (S2 := rsum (map sq xs)) in *. set (T1 := rsum ys) in *. set (T2 := rsum (map sq ys)) in *.
  assert (HW : (0 < W + b)%Q) by (unfold W; lra).
  setoid_replace (w + (rq (length xs) + b))%Q with (W + b)%Q by (unfold W; ring).
  assert (E1 : (w * m0 == W * m - S1)%Q) by (rewrite P1; ring).
  assert (E2 : (w * (v0 + m0 * m0) == W * v + W * m * m - S2)%Q) by (rewrite P2; ring).
  assert (E3 : (T2 == b * bv + 2 * bm * T1 - b * bm * bm)%Q) by (rewrite B2; ring).
  split.
  - setoid_replace (w * m0 + (S1 + T1))%Q with (w * m0 + S1 + T1)%Q by ring. rewrite E1, <- B1. field. lra.
  - setoid_replace (w * (v0 + m0 * m0) + (S2 + T2))%Q with (w * (v0 + m0 * m0) + S2 + T2)%Q by ring. rewrite E2, E3, <- B1. field. lra.
Qed.

Lemma from_moments_count mean var c c' bm bv b : (c == c')%Q ->
  (fst (from_moments mean var c bm bv b) == fst (from_moments mean var c' bm bv b) /\
   snd (from_moments mean var c bm bv b) == snd (from_moments mean var c' bm bv b))%Q.
Proof. intros H. unfold from_moments. simpl. rewrite H. split; reflexivity. Qed.

Lemma pooled_compat w m0 v0 xs m v m' v' : (m == m')%Q -> (v == v')%Q -> pooled w m0 v0 xs m v -> pooled w m0 v0 xs m' v'.
Proof. intros Hm Hv P. rewrite pooled_iff in *. rewrite <- Hm, <- Hv. exact P. Qed.

Lemma column_app j a b : column j (a ++ b) = column j a ++ column j b.
Proof. unfold column. apply map_app. Qed.
Lemma column_length j a : length (column j a) = length a.
Proof. unfold column. apply map_length. Qed.

Lemma seq_nth_error n : forall a j k, nth_error (seq a n) j = Some k -> k = a + j /\ j < n.
Proof.
  induction n as [|n IH]; intros a [|j] k H; simpl in *; try discriminate.
  - inversion H. lia.
  - apply IH in H. lia.
Qed.

Lemma update_exact w k rows st b st' : (0 <= w)%Q -> exact_stats w k rows st -> rms_update st b = Some st' -> exact_stats w k (rows ++ b) st'.
Proof.
  intros Hw (L1 & L2 & C & E) H. unfold rms_update in H. destruct ((length b =? 0) || _) eqn:E0; [discriminate|].
  apply orb_false_iff in E0. destruct E0 as [E0 _]. apply Nat.eqb_neq in E0. inversion H; subst st'; clear H.
  unfold exact_stats. cbn [r_mean r_var r_count]. rewrite !map_length, !seq_length. split; auto. split; auto. split.
  - rewrite app_length, rq_add, C. ring.
  - intros j m v Hm Hv. rewrite nth_error_map in Hm, Hv.
    destruct (nth_error (seq 0 (length (r_mean st))) j) as [j'|] eqn:Ej; [|discriminate]. apply seq_nth_error in Ej. destruct Ej as [-> Hj].
    cbn [Nat.add option_map] in *. inversion Hm as [Hm']. inversion Hv as [Hv']. clear Hm Hv.
    assert (En : nth_error (r_mean st) j = Some (nth j (r_mean st) 0%Q)) by (apply nth_error_nth'; lia).
    assert (Env : nth_error (r_var st) j = Some (nth j (r_var st) 0%Q)) by (apply nth_error_nth'; lia).
    specialize (E _ _ _ En Env). rewrite column_app.
    assert (Hc : column j b <> []) by (intros Z; apply (f_equal (@length Q)) in Z; rewrite column_length in Z; simpl in Z; lia).
    destruct (from_moments (nth j (r_mean st) 0%Q) (nth j (r_var st) 0%Q) (w + rq (length (column j rows))) (np_mean (column j b)) (np_var (column j b)) (rq (length (column j b)))) as [m1 v1] eqn:EF.
    pose proof (from_moments_ok _ _ _ _ _ _ _ _ _ _ _ Hw Hc E (np_moments _ Hc) EF) as P.
    rewrite !column_length in EF.
    destruct (from_moments_count (nth j (r_mean st) 0%Q) (nth j (r_var st) 0%Q) _ _ (np_mean (column j b)) (np_var (column j b)) (rq (length b)) C) as [A B].
    rewrite EF in A, B. cbn [fst snd] in A, B. eapply pooled_compat; [symmetry; exact A|symmetry; exact B|exact P].
Qed.

Lemma update_total st k b : length (r_mean st) = k -> batch_ok k b -> exists st', rms_update st b = Some st' /\ length (r_mean st') = k.
Proof.
  intros L [Hb F]. unfold rms_update. rewrite L. replace (length b =? 0) with false by (symmetry; apply Nat.eqb_neq; destruct b; simpl; congruence).
  replace (forallb (fun r => length r =? k) b) with true.
  - cbn [negb orb]. eexists. split; [reflexivity|]. cbn [r_mean]. rewrite map_length, seq_length. auto.
  - symmetry. apply forallb_forall. intros r Hr. rewrite Forall_forall in F. apply Nat.eqb_eq. auto.
Qed.

Lemma run_exact w k : (0 <= w)%Q -> forall bs rows st st', exact_stats w k rows st -> rms_run st bs = Some st' -> exact_stats w k (rows ++ concat bs) st'.
Proof.
  intros Hw. induction bs as [|b bs IH]; intros rows st st' E H; cbn [rms_run concat] in *.
  - inversion H; subst. rewrite app_nil_r. auto.
  - apply bind_Some in H. destruct H as (s1 & H1 & H). rewrite app_assoc. eapply IH; [|exact H]. eapply update_exact; eauto.
Qed.
Lemma run_total k bs : forall st, length (r_mean st) = k -> Forall (batch_ok k) bs -> exists st', rms_run st bs = Some st'.
Proof.
  induction bs as [|b bs IH]; intros st L F; cbn [rms_run]; [eauto|]. inversion F; subst.
  destruct (update_total st _ b eq_refl H1) as (s1 & E & L1). rewrite E. cbn [bind]. apply IH; auto.
Qed.

Lemma new_exact w k : exact_stats w k [] (rms_new w k).
Proof.
  unfold exact_stats, rms_new. cbn [r_mean r_var r_count length]. rewrite !repeat_length. split; auto. split; auto. split.
  - unfold rq. simpl. ring.
  - intros j m v Hm Hv. apply nth_error_In in Hm, Hv. apply repeat_spec in Hm, Hv. subst. unfold pooled, column. simpl. unfold rq. simpl. split; ring.
Qed.

Theorem stats_exact w k bs st : (0 <= w)%Q -> rms_run (rms_new w k) bs = Some st -> exact_stats w k (concat bs) st.
Proof. intros Hw H. exact (run_exact w k Hw bs [] _ _ (new_exact w k) H). Qed.
Theorem stats_total w k bs : Forall (batch_ok k) bs -> exists st, rms_run (rms_new w k) bs = Some st.
Proof. apply run_total. apply repeat_length. Qed.

Lemma pooled_unique w m0 v0 xs ys m v m' v' : Permutation xs ys -> (0 < w + rq (length xs))%Q ->
  pooled w m0 v0 xs m v -> pooled w m0 v0 ys m' v' -> (m == m' /\ v == v')%Q.
Proof.
  intros P Hw A B. rewrite pooled_iff in A, B. rewrite <- (Permutation_length P) in B. rewrite <- (rsum_perm _ _ P) in B.
  rewrite <- (rsum_perm _ _ (Permutation_map sq P)) in B.
  destruct A as [A1 A2]. destruct B as [B1 B2]. set (W := (w + rq (length xs))%Q) in *.
  assert (Em : (m == m')%Q).
  { assert (Z : (W * (m - m') == 0)%Q) by (setoid_replace (W * (m - m'))%Q with (W * m - W * m')%Q by ring; rewrite A1, B1; ring).
    apply Qmult_integral in Z. destruct Z as [Z|Z]; lra. }
  split; auto.
  assert (Z : (W * (v - v') == 0)%Q).
  { setoid_replace (W * (v - v'))%Q with ((W * v + W * m * m) - (W * v' + W * m * m))%Q by ring. rewrite A2. rewrite Em at 1 2. rewrite B2. ring. }
  apply Qmult_integral in Z. destruct Z as [Z|Z]; lra.
Qed.
Lemma Forall2_of_nth {A B} (R : A -> B -> Prop) : forall l l', length l = length l' ->
  (forall j a b, nth_error l j = Some a -> nth_error l' j = Some b -> R a b) -> Forall2 R l l'.
Proof.
  induction l as [|a l IH]; intros [|b l'] L H; try discriminate; constructor.
  - apply (H 0); reflexivity.
  - apply IH; [simpl in L; lia|]. intros j x y Hx Hy. apply (H (S j)); auto.
Qed.
Lemma nth_error_both {A B} (l : list A) (l' : list B) j a : length l = length l' -> nth_error l j = Some a -> exists b, nth_error l' j = Some b.
Proof.
  intros L H. destruct (nth_error l' j) eqn:E; eauto. exfalso. apply nth_error_None in E. assert (j < length l) by (apply nth_error_Some; congruence). lia.
Qed.
Theorem stats_same w k bs bs' st st' : (0 <= w)%Q -> concat bs <> [] -> Permutation (concat bs) (concat bs') ->
  rms_run (rms_new w k) bs = Some st -> rms_run (rms_new w k) bs' = Some st' -> same_stats st st'.
Proof.
  intros Hw Hn P H H'. apply stats_exact in H; auto. apply stats_exact in H'; auto.
  destruct H as (L1 & L2 & C & E). destruct H' as (L1' & L2' & C' & E').
  assert (X : forall j m v m' v', nth_error (r_mean st) j = Some m -> nth_error (r_var st) j = Some v ->
     nth_error (r_mean st') j = Some m' -> nth_error (r_var st') j = Some v' -> (m == m' /\ v == v')%Q).
  { intros j m v m' v' Hm Hv Hm' Hv'. eapply pooled_unique; [| |exact (E _ _ _ Hm Hv)|exact (E' _ _ _ Hm' Hv')].
    - unfold column. apply Permutation_map. auto.
    - rewrite column_length. assert (0 < rq (length (concat bs)))%Q by (apply rq_pos; destruct (concat bs); simpl; [congruence|lia]). lra. }
  split; [rewrite C, C', (Permutation_length P); reflexivity|]. split; apply Forall2_of_nth; try congruence.
  - intros j m m' Hm Hm'. destruct (nth_error_both (r_mean st) (r_var st) _ _ ltac:(congruence) Hm) as (v & Hv).
    destruct (nth_error_both (r_mean st') (r_var st') _ _ ltac:(congruence) Hm') as (v' & Hv'). apply (X j _ _ _ _ Hm Hv Hm' Hv').
  - intros j v v' Hv Hv'. destruct (nth_error_both (r_var st) (r_mean st) _ _ ltac:(congruence) Hv) as (m & Hm).
    destruct (nth_error_both (r_var st') (r_mean st') _ _ ltac:(congruence) Hv') as (m' & Hm'). apply (X j _ _ _ _ Hm Hv Hm' Hv').
Qed.

Lemma pooled_var w m0 v0 xs m v : (0 <= w)%Q -> (0 <= v0)%Q -> (0 < w + rq (length xs))%Q -> pooled w m0 v0 xs m v ->
  (0 <= v)%Q /\ ((0 < w)%Q -> (0 < v0)%Q -> (0 < v)%Q).
Proof.
  intros Hw Hv Hn [_ P]. pose proof (rsum_dev_nonneg m xs) as D. set (D0 := rsum _) in *. set (W := (w + rq (length xs))%Q) in *.
  assert (S0 : (0 <= (m0 - m) * (m0 - m))%Q) by apply sq_nonneg. set (sq0 := ((m0 - m) * (m0 - m))%Q) in *.
  assert (A : (0 <= w * (v0 + sq0))%Q) by (apply Qmult_le_0_compat; lra).
  split.
  - destruct (Qlt_le_dec v 0) as [N|]; auto. exfalso. assert (0 < W * - v)%Q by (apply Qmult_lt_0_compat; lra). lra.
  - intros Hw' Hv'. assert (A' : (0 < w * (v0 + sq0))%Q) by (apply Qmult_lt_0_compat; lra).
    destruct (Qlt_le_dec 0 v) as [|N]; auto. exfalso. assert (0 <= W * - v)%Q by (apply Qmult_le_0_compat; lra). lra.
Qed.
Theorem stats_var w k bs st : (0 <= w)%Q -> rms_run (rms_new w k) bs = Some st -> (0 < w + rq (length (concat bs)))%Q ->
  Forall (fun v => 0 <= v /\ (0 < w -> 0 < v))%Q (r_var st).
Proof.
  intros Hw H Hn. apply stats_exact in H; auto. destruct H as (L1 & L2 & C & E). apply Forall_forall. intros v Hv.
  apply In_nth_error in Hv. destruct Hv as (j & Hj). destruct (nth_error_both (r_var st) (r_mean st) _ _ ltac:(congruence) Hj) as (m & Hm).
  specialize (E _ _ _ Hm Hj). destruct (pooled_var w 0 1 (column j (concat bs)) m v Hw ltac:(lra) ltac:(rewrite column_length; exact Hn) E) as [A B].
  split; auto. intros. apply B; lra.
Qed.
(** With pseudo-count 0 the statistics are the plain moments of the data. *)
Theorem stats_plain k bs st : rms_run (rms_new 0 k) bs = Some st ->
  forall j m v, nth_error (r_mean st) j = Some m -> nth_error (r_var st) j = Some v -> moments (column j (concat bs)) m v.
Proof.
  intros H j m v Hm Hv. apply stats_exact in H; [|lra]. destruct H as (_ & _ & _ & E). destruct (E _ _ _ Hm Hv) as [A B]. split.
  - rewrite Qplus_0_l in A. rewrite A. ring.
  - rewrite Qplus_0_l in B. rewrite B. ring.
Qed.

(** * The sum / sum of squares accumulator *)
Definition mpi_ok (w : Q) (k : nat) (rows : list (list Q)) (st : mpi) : Prop :=
  length (mp_sum st) = k /\ (mp_count st == w + rq (length rows))%Q /\
  forall j, j < k -> (nth j (mp_sum st) 0 == rsum (column j rows))%Q /\ (nth j (mp_sumsq st) 0 == w + rsum (map sq (column j rows)))%Q.
Lemma total_concat (f : list (list Q) -> Q) ws : (f [] == 0)%Q -> (forall a b, (f (a ++ b) == f a + f b)%Q) -> (rsum (map f ws) == f (concat ws))%Q.
Proof. intros H0 H. induction ws as [|a ws IH]; simpl; [symmetry; auto|]. rewrite H, IH. reflexivity. Qed.
Lemma nth_map_seq (f : nat -> Q) k j : j < k -> nth j (map f (seq 0 k)) 0%Q = f j.
Proof. intros H. rewrite (nth_indep _ 0%Q (f 0)) by (rewrite map_length, seq_length; auto). rewrite map_nth, seq_nth; auto. Qed.
Lemma mpi_update_ok w k rows st ws : mpi_ok w k rows st -> mpi_ok w k (rows ++ concat ws) (mpi_update st ws).
Proof.
  intros (L & C & E). unfold mpi_update, mpi_ok. cbn [mp_sum mp_sumsq mp_count]. rewrite map_length, seq_length. split; auto. split.
  - rewrite (total_concat (fun b => rq (length b))); [|reflexivity|intros; rewrite app_length; apply rq_add]. rewrite C, app_length, rq_add. ring.
  - intros j Hj. rewrite L. rewrite !nth_map_seq by auto. destruct (E j Hj) as [E1 E2]. split.
    + rewrite (total_concat (fun b => rsum (column j b))); [|reflexivity|intros; rewrite column_app; apply rsum_app]. rewrite E1, column_app, rsum_app. reflexivity.
    + rewrite (total_concat (fun b => rsum (map (fun x => (x * x)%Q) (column j b)))); [|reflexivity|intros; rewrite column_app, map_app; apply rsum_app].
      rewrite E2, column_app, map_app, rsum_app. unfold sq. ring.
Qed.
Lemma mpi_run_ok w k rounds : forall rows st, mpi_ok w k rows st -> mpi_ok w k (rows ++ concat (map (@concat _) rounds)) (mpi_run st rounds).
Proof.
  induction rounds as [|r rs IH]; intros rows st H; cbn [mpi_run fold_left map concat]; [rewrite app_nil_r; auto|].
  rewrite app_assoc. apply IH. apply mpi_update_ok. auto.
Qed.
Theorem mpi_exact w k rounds j : (0 < w + rq (length (concat (map (@concat _) rounds))))%Q -> j < k ->
  pooled w 0 1 (column j (concat (map (@concat _) rounds))) (mpi_mean (mpi_run (mpi_new w k) rounds) j) (mpi_var (mpi_run (mpi_new w k) rounds) j).
Proof.
  intros P Hj. destruct (mpi_run_ok w k rounds [] (mpi_new w k)) as (L & C & E).
  { unfold mpi_ok, mpi_new. cbn [mp_sum mp_sumsq mp_count]. rewrite repeat_length. split; auto. split; [unfold rq; simpl; ring|].
    intros i Hi. unfold column. simpl. split; [|rewrite Qplus_0_r].
    - pose proof (nth_In (repeat 0%Q k) 0%Q (n:=i)) as X. rewrite repeat_length in X. specialize (X Hi). apply repeat_spec in X. rewrite X. reflexivity.
    - pose proof (nth_In (repeat w k) 0%Q (n:=i)) as X. rewrite repeat_length in X. specialize (X Hi). apply repeat_spec in X. rewrite X. reflexivity. }
  cbn [app] in *. set (rows := concat (map (@concat _) rounds)) in *. destruct (E j Hj) as [E1 E2]. apply pooled_iff. unfold mpi_mean, mpi_var. unfold mpi_mean.
  rewrite E1, E2, C, column_length. split; field; lra.
Qed.
Theorem mpi_agrees w k rounds bs st j m v : (0 <= w)%Q -> (0 < w + rq (length (concat bs)))%Q -> Permutation (concat bs) (concat (map (@concat _) rounds)) ->
  rms_run (rms_new w k) bs = Some st -> nth_error (r_mean st) j = Some m -> nth_error (r_var st) j = Some v ->
  (mpi_mean (mpi_run (mpi_new w k) rounds) j == m /\ mpi_var (mpi_run (mpi_new w k) rounds) j == v)%Q.
Proof.
  intros Hw Hn P H Hm Hv. apply stats_exact in H; auto. destruct H as (L1 & L2 & C & E). specialize (E _ _ _ Hm Hv).
  assert (Hj : j < k) by (rewrite <- L1; apply nth_error_Some; congruence).
  assert (Hn' : (0 < w + rq (length (concat (map (@concat _) rounds))))%Q) by (rewrite <- (Permutation_length P); exact Hn).
  pose proof (mpi_exact w k rounds j Hn' Hj) as M.
  destruct (pooled_unique w 0 1 _ _ _ _ _ _ (Permutation_map (fun r => nth j r 0%Q) P) ltac:(rewrite map_length; exact Hn) E M) as [A B].
  split; symmetry; auto.
Qed.
