(** C125: unsigned integers, shapes, and running statistics. *)
From Coq Require Import Reals List ZArith Arith Bool Lia Lra Permutation.
From Verif Require Import MP_Model MP_Spec MP_Proofs.
Import ListNotations.
Open Scope R_scope.

Lemma natural_nonneg x : natural x -> 0 <= x.
Proof. intros [n ->]. apply pos_INR. Qed.
Lemma natural_plus x y : natural x -> natural y -> natural (x + y).
Proof. intros [n ->] [m ->]. exists (n + m)%nat. now rewrite plus_INR. Qed.
Lemma natural_zero : natural 0.
Proof. now exists 0%nat. Qed.
Lemma sum_nonneg l : Forall natural l -> 0 <= sum l.
Proof. unfold sum. induction 1 as [|x l H _ IH]; cbn; [lra|]. apply natural_nonneg in H. lra. Qed.
Lemma nth_natural j v : Forall natural v -> natural (nth j v 0).
Proof.
  intros F. destruct (Nat.lt_ge_cases j (length v)) as [L|L].
  - rewrite Forall_forall in F. apply F. now apply nth_In.
  - rewrite nth_overflow by exact L. apply natural_zero.
Qed.
Lemma column_natural j vs : Forall (Forall natural) vs -> Forall natural (column j vs).
Proof. intros F. apply Forall_map. eapply Forall_impl; [|exact F]. intros v. apply nth_natural. Qed.
Lemma vadd_natural a b : Forall natural a -> Forall natural b -> Forall natural (vadd a b).
Proof.
  intros A. revert b. unfold vadd. induction A as [|x a H A IH]; intros b B; [constructor|]. destruct B as [|y b K B]; [constructor|].
  cbn. constructor; [now apply natural_plus|]. apply IH. exact B.
Qed.
Lemma zeros_natural w : Forall natural (zeros w).
Proof. unfold zeros. induction w; cbn; constructor; auto using natural_zero. Qed.
Lemma fold_natural vs z : Forall natural z -> Forall (Forall natural) vs -> Forall natural (fold_left vadd vs z).
Proof. intros Z F. revert z Z. induction F as [|v vs H F IH]; intros z Z; [exact Z|]. cbn. apply IH. now apply vadd_natural. Qed.
Lemma store_map b v : Forall natural v -> (forall j, nth j v 0 < 2 ^ b) -> map (store (Unsigned b)) v = v.
Proof.
  induction 1 as [|x v H F IH]; intros S; [reflexivity|]. cbn [map]. rewrite store_small_R; [|exact H|exact (S 0%nat)].
  rewrite IH; [reflexivity|]. intros j. exact (S (Datatypes.S j)).
Qed.
Lemma fold_store b w : forall vs z, length z = w -> Forall (fun v => length v = w) vs -> Forall natural z -> Forall (Forall natural) vs ->
  (forall j, nth j (fold_left vadd vs z) 0 < 2 ^ b) ->
  fold_left (fun acc v => map (store (Unsigned b)) (vadd acc v)) vs z = fold_left vadd vs z.
Proof.
  induction vs as [|v vs IH]; intros z L F Z N B; [reflexivity|]. inversion F as [|? ? F1 F2]; subst. inversion N as [|? ? N1 N2]; subst.
  cbn [fold_left] in *. assert (LV : length (vadd z v) = length z) by (rewrite vadd_length; lia).
  rewrite store_map.
  - apply IH; auto. now apply vadd_natural.
  - now apply vadd_natural.
  - intros j. specialize (B j). rewrite (fold_nth _ _ (length z)) in B by assumption.
    pose proof (sum_nonneg _ (column_natural j _ N2)). lra.
Qed.

Lemma rows_natural arrs : Forall (Forall natural) (pooled arrs) -> Forall (fun a => Forall (Forall natural) (rows a)) arrs.
Proof.
  unfold pooled. induction arrs as [|a arrs IH]; intros F; [constructor|]. cbn in F. apply Forall_app in F. destruct F. constructor; auto.
Qed.

Lemma local_bound w b : forall arrs, shaped w arrs -> Forall (Forall natural) (pooled arrs) ->
  (forall j, (j < w)%nat -> sum (column j (pooled arrs)) < 2 ^ b) -> INR (length (pooled arrs)) < 2 ^ b ->
  Forall (fun a => buffer (Unsigned b) a = buffer Float a /\ length (buffer Float a) = (w + 1)%nat /\ Forall natural (buffer Float a)) arrs.
Proof.
  induction arrs as [|a arrs IH]; intros S N B C; [constructor|]. inversion S as [|? ? [W F] S2]; subst.
  unfold pooled in N, B, C. cbn [map concat] in N, B, C. apply Forall_app in N. destruct N as [N1 N2]. rewrite app_length, plus_INR in C.
  assert (BA : forall j, (j < width a)%nat -> sum (column j (rows a)) + sum (column j (pooled arrs)) < 2 ^ b).
  { intros j L. specialize (B j L). unfold column in *. rewrite map_app, sum_app in B. exact B. }
  assert (TN : Forall natural (total a ++ [INR (length (rows a))])).
  { apply Forall_app. split; [apply fold_natural; [apply zeros_natural|exact N1]|]. constructor; [eexists; reflexivity|constructor]. }
  constructor.
  - split; [|split].
    + unfold buffer at 2. rewrite map_id. unfold buffer. apply store_map; [exact TN|].
      intros j. pose proof (pos_INR (length (concat (map rows arrs)))) as C0. destruct (Nat.lt_trichotomy j (width a)) as [L|[L|L]].
      * rewrite app_nth1 by (rewrite (total_length (width a)); auto). rewrite (total_nth (width a)) by auto.
        specialize (BA j L). pose proof (sum_nonneg _ (column_natural j _ N2)). unfold pooled in BA. lra.
      * subst j. rewrite app_nth2 by (rewrite (total_length (width a)) by auto; lia). rewrite (total_length (width a)), Nat.sub_diag by auto.
        cbn [nth]. lra.
      * rewrite nth_overflow; [apply pow2_pos|]. rewrite app_length, (total_length (width a)) by auto. cbn. lia.
    + apply (buffer_length (width a)); auto.
    + unfold buffer. rewrite map_id. exact TN.
  - apply IH; auto.
    + intros j L. specialize (BA j L). pose proof (sum_nonneg _ (column_natural j _ N1)). lra.
    + pose proof (pos_INR (length (rows a))). unfold pooled. lra.
Qed.

Theorem small_mean : forall b w arrs, shaped w arrs -> Forall (Forall natural) (pooled arrs) ->
  (forall j, (j < w)%nat -> sum (column j (pooled arrs)) < 2 ^ b) -> INR (length (pooled arrs)) < 2 ^ b ->
  mpi_mean (Unsigned b) w arrs = mpi_mean Float w arrs.
Proof.
  intros b w arrs S N B C. pose proof (local_bound w b arrs S N B C) as H.
  assert (E : map (buffer (Unsigned b)) arrs = map (buffer Float) arrs).
  { apply map_ext_in. intros a I. rewrite Forall_forall in H. apply (H a I). }
  unfold mpi_mean. rewrite E. assert (A : allreduce (Unsigned b) (w + 1) (map (buffer Float) arrs) = allreduce Float (w + 1) (map (buffer Float) arrs)).
  { rewrite allreduce_float. unfold allreduce. apply (fold_store b (w + 1)).
    - apply repeat_length.
    - apply Forall_map. eapply Forall_impl; [|exact H]. intros a K. apply K.
    - apply zeros_natural.
    - apply Forall_map. eapply Forall_impl; [|exact H]. intros a K. apply K.
    - rewrite <- allreduce_float. intros j. destruct (Nat.lt_trichotomy j w) as [L|[L|L]].
      + rewrite global_nth by assumption. now apply B.
      + subst j. rewrite global_count by assumption. exact C.
      + rewrite nth_overflow; [apply pow2_pos|]. rewrite global_length by assumption. lia. }
  rewrite A. reflexivity.
Qed.
Theorem small_moments : forall b w arrs, shaped w arrs -> Forall (Forall natural) (pooled arrs) ->
  (forall j, (j < w)%nat -> sum (column j (pooled arrs)) < 2 ^ b) -> INR (length (pooled arrs)) < 2 ^ b ->
  mpi_moments (Unsigned b) w arrs = mpi_moments Float w arrs.
Proof. intros. unfold mpi_moments. now rewrite small_mean. Qed.

(** Counts that do not fit. *)
Lemma last_count w b : forall arrs z, shaped w arrs -> length z = (w + 1)%nat -> (exists n, nth w z 0 = INR n /\ (n < 2 ^ b)%nat) ->
  exists n, nth w (fold_left (fun acc v => map (store (Unsigned b)) (vadd acc v)) (map (buffer (Unsigned b)) arrs) z) 0 = INR n /\ (n < 2 ^ b)%nat.
Proof.
  induction arrs as [|a arrs IH]; intros z S L [n [E B]]; [now exists n|]. inversion S as [|? ? [W F] S2]; subst. cbn [map fold_left].
  assert (NZ : (2 ^ b <> 0)%nat) by (apply Nat.pow_nonzero; lia).
  pose proof (buffer_length (width a) (Unsigned b) a eq_refl F) as BL.
  apply IH; [exact S2|rewrite map_length, vadd_length; lia|].
  assert (BN : nth (width a) (buffer (Unsigned b) a) 0 = INR (length (rows a) mod 2 ^ b)).
  { unfold buffer. rewrite map_app, app_nth2 by (rewrite map_length, (total_length (width a)) by auto; lia).
    rewrite map_length, (total_length (width a)), Nat.sub_diag by auto. cbn [map nth]. apply store_nat. }
  exists ((n + length (rows a) mod 2 ^ b) mod 2 ^ b)%nat. split; [|now apply Nat.mod_upper_bound].
  rewrite (nth_indep _ 0 (store (Unsigned b) 0)) by (rewrite map_length, vadd_length; lia). rewrite map_nth, vadd_nth by lia.
  rewrite E, BN, <- plus_INR. apply store_nat.
Qed.
Theorem many_rows : forall b w arrs, shaped w arrs -> 2 ^ b <= INR (length (pooled arrs)) ->
  mpi_moments (Unsigned b) w arrs = NotANumber \/ mpi_moments (Unsigned b) w arrs = AssertionError.
Proof.
  intros b w arrs S C. unfold mpi_moments, mpi_mean at 1 3. cbv zeta.
  destruct (last_count w b arrs (zeros (w + 1)) S (repeat_length _ _)) as (n & E & B).
  { exists 0%nat. split; [apply zeros_nth|]. assert (2 ^ b <> 0)%nat by (apply Nat.pow_nonzero; lia). lia. }
  change (fold_left _ _ _) with (allreduce (Unsigned b) (w + 1) (map (buffer (Unsigned b)) arrs)) in E.
  set (g := allreduce (Unsigned b) (w + 1) (map (buffer (Unsigned b)) arrs)) in *. rewrite E.
  destruct (Req_EM_T (INR n) 0) as [Z|Z]; [now left|]. right.
  set (m := map _ (firstn w g)). assert (LM : length m = w).
  { unfold m. rewrite map_length, firstn_length. assert (LG : length g = (w + 1)%nat).
    { unfold g, allreduce. clear - S. assert (G : forall vs z, length z = (w + 1)%nat -> Forall (fun v => length v = (w + 1)%nat) vs ->
        length (fold_left (fun acc v => map (store (Unsigned b)) (vadd acc v)) vs z) = (w + 1)%nat).
      { induction vs as [|v vs IH]; intros z L F; [exact L|]. inversion F; subst. cbn [fold_left]. apply IH; [|assumption].
        rewrite map_length, vadd_length. lia. }
      apply G; [apply repeat_length|]. apply Forall_map. eapply Forall_impl; [|exact S]. intros a [W F]. now apply buffer_length. }
    lia. }
  assert (NE : pooled (map (sqdiffs m) arrs) <> []).
  { rewrite sqdiffs_pooled. intros Q. apply map_eq_nil in Q. rewrite Q in C. cbn in C. pose proof (pow2_pos b). lra. }
  destruct (mean_exact w _ (sqdiffs_shaped w m arrs S LM) NE) as (q & -> & _ & _).
  destruct (Req_EM_T _ _) as [Y|Y]; [exfalso|reflexivity].
  rewrite sqdiffs_pooled, map_length in Y. apply lt_INR in B. rewrite pow_INR in B. change (INR 2) with 2 in B. lra.
Qed.
Theorem bytes_wrong : exists arrs, shaped 1 arrs /\ pooled arrs = [[200]; [100]] /\ mpi_mean (Unsigned 8) 1 arrs = Some ([22], 2).
Proof.
  exists [Array 1 [[200]]; Array 1 [[100]]]. split; [|split; [reflexivity|]].
  - repeat constructor.
  - unfold mpi_mean, allreduce, buffer, total, vadd, zeros. cbn [map rows width length Nat.add repeat fold_left combine app fst snd nth firstn].
    replace (0 + 200) with (INR 200) by (rewrite INR_IZR_INZ; cbn; lra). replace (0 + 100) with (INR 100) by (rewrite INR_IZR_INZ; cbn; lra).
    rewrite !store_nat. rewrite !Nat.mod_small by (cbn; lia). replace (0 + INR 200) with (INR 200) by lra. replace (0 + INR 1) with (INR 1) by lra.
    rewrite !store_nat. rewrite !Nat.mod_small by (cbn; lia). rewrite <- !plus_INR, !store_nat.
    replace ((200 + 100) mod 2 ^ 8)%nat with 44%nat by reflexivity. replace ((1 + 1) mod 2 ^ 8)%nat with 2%nat by reflexivity.
    rewrite !INR_IZR_INZ. cbn. destruct (Req_EM_T 2 0); [lra|]. do 3 f_equal. lra.
Qed.

(** Shapes. *)
Lemma size_app a b : size (a ++ b) = (size a * size b)%nat.
Proof. unfold size. induction a as [|x a IH]; cbn; [lia|]. rewrite IH. lia. Qed.
Lemma firstn_app_exact {A} (a b : list A) : firstn (length a) (a ++ b) = a.
Proof. rewrite firstn_app, Nat.sub_diag, firstn_all. cbn. apply app_nil_r. Qed.
Lemma skipn_app_exact {A} (a b : list A) : skipn (length a) (a ++ b) = b.
Proof. rewrite skipn_app, Nat.sub_diag, skipn_all. reflexivity. Qed.
Theorem axis_right : forall l n r axis, axis = Z.of_nat (length l) \/ (r <> [] /\ axis = - Z.of_nat (S (length r)))%Z ->
  reshaped axis (l ++ n :: r) = Some (l ++ r).
Proof.
  intros l n r axis H.
  assert (P : place axis (l ++ n :: r) = length l).
  { unfold place. rewrite app_length. cbn [length]. destruct (Z.ltb_spec axis 0); destruct H as [H|[_ H]]; lia. }
  unfold reshaped, kept. rewrite P, firstn_app_exact.
  replace (skipn (S (length l)) (l ++ n :: r)) with r.
  2:{ replace (S (length l)) with (length (l ++ [n])) by (rewrite app_length; cbn; lia).
      replace (l ++ n :: r) with ((l ++ [n]) ++ r) by (rewrite <- app_assoc; reflexivity). now rewrite skipn_app_exact. }
  cbv zeta. assert (U : upto axis (l ++ 1%nat :: r) = l).
  { unfold upto. rewrite app_length. cbn [length]. destruct (Z.ltb_spec axis 0).
    - replace (_ - _)%nat with (length l) by lia. apply firstn_app_exact.
    - replace (Z.to_nat axis) with (length l) by lia. apply firstn_app_exact. }
  assert (V : from (axis + 1) (l ++ 1%nat :: r) = r).
  { unfold from. replace (l ++ 1%nat :: r) with ((l ++ [1%nat]) ++ r) by (rewrite <- app_assoc; reflexivity).
    assert (LL : length (l ++ [1%nat]) = S (length l)) by (rewrite app_length; cbn; lia).
    rewrite app_length, LL. destruct H as [->|[NR ->]].
    - destruct (Z.ltb_spec (Z.of_nat (length l) + 1) 0); [lia|]. replace (Z.to_nat _) with (length (l ++ [1%nat])) by lia. apply skipn_app_exact.
    - assert (length r <> 0)%nat by (destruct r; [congruence|discriminate]).
      destruct (Z.ltb_spec (- Z.of_nat (S (length r)) + 1) 0); [|lia].
      replace (_ - _)%nat with (length (l ++ [1%nat])) by lia. apply skipn_app_exact. }
  rewrite U, V. rewrite !size_app. change (size (1%nat :: r)) with (1 * size r)%nat. rewrite Nat.mul_1_l, Nat.eqb_refl. reflexivity.
Qed.
Theorem last_axis : forall l n, ((1 < size l)%nat -> reshaped (-1) (l ++ [n]) = None) /\ (l = [] -> reshaped (-1) (l ++ [n]) = Some [1%nat]).
Proof.
  intros l n. split; [|intros ->; reflexivity]. intros H. unfold reshaped, kept, place. rewrite app_length. cbn [length Z.ltb Z.compare Z.abs_nat Pos.to_nat].
  replace (length l + 1 - _)%nat with (length l) by (cbn; lia). rewrite firstn_app_exact.
  rewrite skipn_all2 by (rewrite app_length; cbn; lia). cbv zeta. unfold upto, from. rewrite app_length.
  cbn [length Z.ltb Z.compare Z.add Z.abs_nat Pos.to_nat Z.pos_sub Z.to_nat skipn]. replace (length l + 1 - _)%nat with (length l) by (cbn; lia).
  rewrite firstn_app_exact, !size_app. cbn [size fold_right]. destruct (Nat.eqb_spec (size l * (size l * (1 * 1))) (size l * (1 * 1))); [exfalso; nia|reflexivity].
Qed.
