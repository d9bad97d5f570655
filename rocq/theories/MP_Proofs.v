(** Lemmas for C125. *)
From Coq Require Import Reals List ZArith Arith Bool Lia Lra Permutation.
From Verif Require Import MP_Model MP_Spec.
Import ListNotations.
Open Scope R_scope.

Lemma vadd_length a b : length (vadd a b) = Nat.min (length a) (length b).
Proof. unfold vadd. rewrite map_length, combine_length. reflexivity. Qed.
Lemma vadd_nth : forall a b j, length a = length b -> nth j (vadd a b) 0 = nth j a 0 + nth j b 0.
Proof.
  induction a as [|x a IH]; intros [|y b] j L; try discriminate; cbn.
  - destruct j; lra.
  - destruct j as [|j]; [reflexivity|]. apply IH. now injection L.
Qed.
Lemma zeros_nth w j : nth j (zeros w) 0 = 0.
Proof. unfold zeros. revert j. induction w as [|w IH]; intros [|j]; cbn; auto. Qed.
Lemma fold_length : forall vs z w, length z = w -> Forall (fun v => length v = w) vs -> length (fold_left vadd vs z) = w.
Proof.
  induction vs as [|v vs IH]; intros z w L F; [exact L|]. inversion F; subst. cbn. apply IH; [|assumption].
  rewrite vadd_length. lia.
Qed.
Lemma fold_nth : forall vs z w j, length z = w -> Forall (fun v => length v = w) vs ->
  nth j (fold_left vadd vs z) 0 = nth j z 0 + sum (column j vs).
Proof.
  induction vs as [|v vs IH]; intros z w j L F; [unfold column, sum; cbn; lra|]. inversion F as [|? ? H1 H2]; subst. cbn [fold_left].
  rewrite (IH _ (length z)); [|rewrite vadd_length; lia|exact H2].
  rewrite vadd_nth by (symmetry; exact H1). change (sum (column j (v :: vs))) with (nth j v 0 + sum (column j vs)). lra.
Qed.
Lemma sum_app a b : sum (a ++ b) = sum a + sum b.
Proof. unfold sum. induction a as [|x a IH]; cbn; [lra|]. rewrite IH. lra. Qed.
Lemma sum_perm a b : Permutation a b -> sum a = sum b.
Proof. unfold sum. induction 1; cbn in *; lra. Qed.
Lemma total_length w a : width a = w -> Forall (fun row => length row = w) (rows a) -> length (total a) = w.
Proof. intros W F. unfold total. apply fold_length; [|exact F]. unfold zeros. rewrite repeat_length. exact W. Qed.
Lemma total_nth w a j : width a = w -> Forall (fun row => length row = w) (rows a) -> nth j (total a) 0 = sum (column j (rows a)).
Proof.
  intros W F. unfold total. rewrite (fold_nth _ _ w); [|unfold zeros; rewrite repeat_length; exact W|exact F].
  rewrite zeros_nth. lra.
Qed.
Lemma allreduce_float n bufs : allreduce Float n bufs = fold_left vadd bufs (zeros n).
Proof.
  unfold allreduce. generalize (zeros n). induction bufs as [|b bufs IH]; intros z; [reflexivity|]. cbn [fold_left].
  cbn [store]. rewrite map_id. apply IH.
Qed.
Lemma buffer_length w d a : width a = w -> Forall (fun row => length row = w) (rows a) -> length (buffer d a) = (w + 1)%nat.
Proof. intros W F. unfold buffer. rewrite map_length, app_length, (total_length w) by assumption. reflexivity. Qed.
Lemma allreduce_length n bufs : Forall (fun v => length v = n) bufs -> length (allreduce Float n bufs) = n.
Proof. intros F. rewrite allreduce_float. apply fold_length; [apply repeat_length|exact F]. Qed.
Lemma allreduce_nth n bufs j : Forall (fun v => length v = n) bufs -> nth j (allreduce Float n bufs) 0 = sum (column j bufs).
Proof. intros F. rewrite allreduce_float, (fold_nth _ _ n); [|apply repeat_length|exact F]. rewrite zeros_nth. lra. Qed.

Lemma nth_firstn_lt {A} (l : list A) w j d : (j < w)%nat -> nth j (firstn w l) d = nth j l d.
Proof.
  revert l j. induction w as [|w IH]; intros l j H; [lia|]. destruct l as [|x l]; [reflexivity|]. destruct j as [|j]; [reflexivity|].
  cbn. apply IH. lia.
Qed.
Lemma nth_skipn {A} (l : list A) w j d : nth j (skipn w l) d = nth (w + j) l d.
Proof. revert l. induction w as [|w IH]; intros l; [reflexivity|]. destruct l as [|x l]; [destruct j; reflexivity|]. cbn. apply IH. Qed.

Lemma sums_of_columns arrs (f : array -> list R) j (G : array -> list (list R)) :
  Forall (fun a => nth j (f a) 0 = sum (column j (G a))) arrs -> sum (column j (map f arrs)) = sum (column j (concat (map G arrs))).
Proof.
  induction 1 as [|a arrs H _ IH]; [reflexivity|]. cbn [map concat]. unfold column in *. rewrite map_app, sum_app.
  rewrite <- IH, <- H. reflexivity.
Qed.
Lemma counts arrs (f : array -> R) : (forall a, f a = INR (length (rows a))) -> sum (map f arrs) = INR (length (pooled arrs)).
Proof.
  intros H. unfold pooled. induction arrs as [|a arrs IH]; [reflexivity|]. cbn [map concat]. rewrite app_length, plus_INR. rewrite <- IH, H. reflexivity.
Qed.

Lemma global_nth w arrs j : shaped w arrs -> (j < w)%nat ->
  nth j (allreduce Float (w + 1) (map (buffer Float) arrs)) 0 = sum (column j (pooled arrs)).
Proof.
  intros S L. rewrite allreduce_nth.
  2:{ unfold shaped in S. apply Forall_map. eapply Forall_impl; [|exact S]. intros a [W F]. apply buffer_length; assumption. }
  apply sums_of_columns. eapply Forall_impl; [|exact S]. intros a [W F]. unfold buffer. rewrite map_id.
  rewrite app_nth1 by (rewrite (total_length w); assumption). apply (total_nth w); assumption.
Qed.
Lemma global_count w arrs : shaped w arrs ->
  nth w (allreduce Float (w + 1) (map (buffer Float) arrs)) 0 = INR (length (pooled arrs)).
Proof.
  intros S. rewrite allreduce_nth.
  2:{ unfold shaped in S. apply Forall_map. eapply Forall_impl; [|exact S]. intros a [W F]. apply buffer_length; assumption. }
  unfold column. rewrite map_map. unfold pooled. induction S as [|a arrs [W F] S IH]; [reflexivity|].
  cbn [map concat]. rewrite app_length, plus_INR, <- IH. cbn [sum fold_right]. f_equal.
  unfold buffer. rewrite map_id. rewrite app_nth2 by (rewrite (total_length w) by assumption; lia).
  rewrite (total_length w), Nat.sub_diag by assumption. reflexivity.
Qed.
Lemma global_length w arrs : shaped w arrs -> length (allreduce Float (w + 1) (map (buffer Float) arrs)) = (w + 1)%nat.
Proof.
  intros S. apply allreduce_length. apply Forall_map. eapply Forall_impl; [|exact S]. intros a [W F]. apply buffer_length; assumption.
Qed.

Lemma mean_nth (g : list R) w c j : (j < w)%nat -> (w <= length g)%nat -> nth j (map (fun s => s / c) (firstn w g)) 0 = nth j g 0 / c.
Proof.
  intros L H. rewrite (nth_indep _ 0 (0 / c)) by (rewrite map_length, firstn_length; lia).
  rewrite (map_nth (fun s => s / c)), nth_firstn_lt by assumption. reflexivity.
Qed.

Lemma length_col j data : length (column j data) = length data.
Proof. apply map_length. Qed.

Theorem mean_exact : forall w arrs, shaped w arrs -> pooled arrs <> [] ->
  exists m, mpi_mean Float w arrs = Some (m, INR (length (pooled arrs))) /\ length m = w
    /\ forall j, (j < w)%nat -> nth j m 0 = average (column j (pooled arrs)).
Proof.
  intros w arrs S NE. unfold mpi_mean. cbv zeta. rewrite (global_count w arrs S). destruct (Req_EM_T _ 0) as [E|E].
  - exfalso. apply NE. apply length_zero_iff_nil. apply INR_eq. exact E.
  - eexists. split; [reflexivity|]. pose proof (global_length w arrs S) as GL. split; [rewrite map_length, firstn_length; lia|].
    intros j L. rewrite mean_nth by lia. rewrite global_nth by assumption. unfold average. rewrite length_col. reflexivity.
Qed.
Lemma mean_none w arrs : shaped w arrs -> pooled arrs = [] -> mpi_mean Float w arrs = None.
Proof.
  intros S NE. unfold mpi_mean. cbv zeta. rewrite (global_count w arrs S), NE. destruct (Req_EM_T _ 0) as [E|E]; [reflexivity|].
  exfalso. apply E. reflexivity.
Qed.

Lemma sqdiffs_shaped w m arrs : shaped w arrs -> length m = w -> shaped w (map (sqdiffs m) arrs).
Proof.
  intros S L. apply Forall_map. eapply Forall_impl; [|exact S]. intros a [W F]. split; [exact W|]. cbn.
  apply Forall_map. eapply Forall_impl; [|exact F]. intros r H. cbv beta in *. rewrite map_length, combine_length. lia.
Qed.
Lemma sqdiffs_pooled m arrs : pooled (map (sqdiffs m) arrs)
  = map (fun row => map (fun p => (fst p - snd p) * (fst p - snd p)) (combine row m)) (pooled arrs).
Proof. unfold pooled. rewrite map_map, concat_map, map_map. reflexivity. Qed.
Lemma diff_nth : forall row m j w, length row = w -> length m = w -> (j < w)%nat ->
  nth j (map (fun p => (fst p - snd p) * (fst p - snd p)) (combine row m)) 0 = (nth j row 0 - nth j m 0) ^ 2.
Proof.
  intros row m j w L1 L2 H. set (F := fun p : R * R => (fst p - snd p) * (fst p - snd p)).
  rewrite (nth_indep _ 0 (F (0, 0))) by (rewrite map_length, combine_length; lia). rewrite map_nth.
  rewrite combine_nth by lia. unfold F. cbn [fst snd]. ring.
Qed.
Lemma pooled_rows w arrs : shaped w arrs -> Forall (fun row => length row = w) (pooled arrs).
Proof. intros S. unfold pooled. induction S as [|a arrs [W F] S IH]; [constructor|]. cbn. apply Forall_app. now split. Qed.
Lemma sqdiffs_column w m arrs j : shaped w arrs -> length m = w -> (j < w)%nat ->
  column j (pooled (map (sqdiffs m) arrs)) = map (fun x => (x - nth j m 0) ^ 2) (column j (pooled arrs)).
Proof.
  intros S L H. rewrite sqdiffs_pooled. unfold column. rewrite !map_map. apply map_ext_in. intros row I.
  pose proof (pooled_rows w arrs S) as F. rewrite Forall_forall in F. specialize (F row I). apply (diff_nth _ _ _ w); assumption.
Qed.

Theorem moments_exact : forall w arrs, shaped w arrs -> pooled arrs <> [] ->
  exists m s, mpi_moments Float w arrs = Moments m s (INR (length (pooled arrs))) /\ length m = w /\ length s = w
    /\ forall j, (j < w)%nat -> nth j m 0 = average (column j (pooled arrs)) /\ nth j s 0 = deviation (column j (pooled arrs)).
Proof.
  intros w arrs S NE. destruct (mean_exact w arrs S NE) as (m & E & L & M). unfold mpi_moments. rewrite E.
  pose proof (sqdiffs_shaped w m arrs S L) as S2.
  assert (NE2 : pooled (map (sqdiffs m) arrs) <> []).
  { rewrite sqdiffs_pooled. destruct (pooled arrs); [congruence|discriminate]. }
  destruct (mean_exact w _ S2 NE2) as (q & E2 & L2 & M2). rewrite E2.
  assert (C : INR (length (pooled (map (sqdiffs m) arrs))) = INR (length (pooled arrs))) by (rewrite sqdiffs_pooled, map_length; reflexivity).
  rewrite C. destruct (Req_EM_T _ _) as [Y|Y]; [|congruence].
  exists m, (map sqrt q). split; [reflexivity|]. split; [exact L|]. split; [rewrite map_length; exact L2|].
  intros j H. split; [apply M; exact H|].
  rewrite (nth_indep _ 0 (sqrt 0)) by (rewrite map_length; lia). rewrite map_nth, M2 by exact H.
  unfold deviation. rewrite (sqdiffs_column w) by assumption. rewrite M by exact H. reflexivity.
Qed.

Lemma column_perm j a b : Permutation a b -> Permutation (column j a) (column j b).
Proof. apply Permutation_map. Qed.
Lemma average_perm a b : Permutation a b -> average a = average b.
Proof. intros P. unfold average. now rewrite (sum_perm _ _ P), (Permutation_length P). Qed.
Lemma deviation_perm a b : Permutation a b -> deviation a = deviation b.
Proof. intros P. unfold deviation. rewrite (average_perm _ _ P). f_equal. apply average_perm. now apply Permutation_map. Qed.
Lemma nth_eq_list : forall (a b : list R) w, length a = w -> length b = w -> (forall j, (j < w)%nat -> nth j a 0 = nth j b 0) -> a = b.
Proof. intros a b w A B H. apply (nth_ext a b 0 0); [congruence|]. intros j L. apply H. lia. Qed.

Theorem split_free : forall w arrs arrs', shaped w arrs -> shaped w arrs' -> Permutation (pooled arrs) (pooled arrs') ->
  mpi_moments Float w arrs = mpi_moments Float w arrs'.
Proof.
  intros w arrs arrs' S S' P. destruct (pooled arrs) as [|x l] eqn:E.
  - apply Permutation_nil in P. unfold mpi_moments. now rewrite !mean_none.
  - assert (N1 : pooled arrs <> []) by congruence. assert (N2 : pooled arrs' <> []).
    { intros Z. rewrite Z in P. apply Permutation_sym, Permutation_nil in P. discriminate. }
    rewrite <- E in P. destruct (moments_exact w arrs S N1) as (m & s & -> & A & B & H). destruct (moments_exact w arrs' S' N2) as (m' & s' & -> & A' & B' & H').
    f_equal.
    + apply (nth_eq_list _ _ w); auto. intros j L. destruct (H j L), (H' j L). rewrite H0, H2. apply average_perm, column_perm, P.
    + apply (nth_eq_list _ _ w); auto. intros j L. destruct (H j L), (H' j L). rewrite H1, H3. apply deviation_perm, column_perm, P.
    + now rewrite (Permutation_length P).
Qed.
Theorem nothing : forall w arrs, shaped w arrs -> pooled arrs = [] -> mpi_moments Float w arrs = NotANumber.
Proof. intros w arrs S E. unfold mpi_moments. now rewrite mean_none. Qed.

(** Unsigned integers. *)
Lemma pow2_pos b : 0 < 2 ^ b.
Proof. apply pow_lt. lra. Qed.
Lemma Int_part_unique r (z : Z) : IZR z <= r < IZR z + 1 -> Int_part r = z.
Proof.
  intros [A B]. unfold Int_part. assert (E : up r = (z + 1)%Z).
  { symmetry. apply tech_up; rewrite plus_IZR; lra. }
  rewrite E. lia.
Qed.
Lemma store_nat b n : store (Unsigned b) (INR n) = INR (n mod 2 ^ b).
Proof.
  cbn [store]. pose proof (Nat.div_mod n (2 ^ b)) as D. assert (NZ : (2 ^ b <> 0)%nat) by (apply Nat.pow_nonzero; lia). specialize (D NZ).
  pose proof (Nat.mod_upper_bound n (2 ^ b) NZ) as U. set (q := (n / 2 ^ b)%nat) in *. set (r := (n mod 2 ^ b)%nat) in *.
  assert (P : INR (2 ^ b) = 2 ^ b) by (rewrite pow_INR; reflexivity).
  assert (E : INR n = 2 ^ b * INR q + INR r) by (rewrite D, plus_INR, mult_INR, P; reflexivity).
  pose proof (pow2_pos b) as Q. apply lt_INR in U. rewrite P in U. pose proof (pos_INR r) as R0.
  assert (I : Int_part (INR n / 2 ^ b) = Z.of_nat q).
  { apply Int_part_unique. rewrite <- INR_IZR_INZ. split.
    - apply (Rmult_le_reg_r (2 ^ b)); [exact Q|]. unfold Rdiv. rewrite Rmult_assoc, Rinv_l by lra. lra.
    - apply (Rmult_lt_reg_r (2 ^ b)); [exact Q|]. unfold Rdiv. rewrite Rmult_assoc, Rinv_l by lra. lra. }
  rewrite I, <- INR_IZR_INZ. lra.
Qed.
Lemma store_small b n : (n < 2 ^ b)%nat -> store (Unsigned b) (INR n) = INR n.
Proof. intros H. rewrite store_nat, Nat.mod_small by exact H. reflexivity. Qed.
Lemma store_small_R b x : natural x -> x < 2 ^ b -> store (Unsigned b) x = x.
Proof.
  intros [n ->] H. apply store_small. apply INR_lt. rewrite pow_INR. exact H.
Qed.
