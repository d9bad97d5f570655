(** Proofs about the encoding of observations. *)
From Coq Require Import QArith ZArith List Bool Lia Lqa Qfield.
From Verif Require Import OI_Model OI_Spec.
Import ListNotations.
Open Scope list_scope.
Open Scope nat_scope.

Lemma fits_iff sp o : fits sp o = true <-> shaped sp o.
Proof. destruct sp, o; simpl; rewrite ?Nat.eqb_eq; split; auto; try discriminate; try contradiction. Qed.

Theorem accepts sp batch scale rows : (exists out, observation_input sp batch scale rows = Returns out) <->
  supported sp = true /\ (forall n, batch = Some n -> length rows = n) /\ Forall (shaped sp) rows.
Proof.
  unfold observation_input. destruct (supported sp); simpl; [|split; [intros [x H]; discriminate|intros [H _]; discriminate]].
  assert (F : forallb (fits sp) rows = true <-> Forall (shaped sp) rows).
  { rewrite forallb_forall, Forall_forall. split; intros H x I; apply fits_iff; auto. }
  destruct batch as [n|].
  - destruct (length rows =? n) eqn:E; simpl.
    + apply Nat.eqb_eq in E. destruct (forallb (fits sp) rows) eqn:G.
      * split; [intros _; split; [reflexivity|]; split; [intros m M; congruence|apply F; reflexivity]|eauto].
      * split; [intros [x H]; discriminate|]. intros (_ & _ & H). apply F in H. discriminate.
    + apply Nat.eqb_neq in E. split; [intros [x H]; discriminate|]. intros (_ & H & _). exfalso. apply E, H; reflexivity.
  - simpl. destruct (forallb (fits sp) rows) eqn:G.
    * split; [intros _; split; [reflexivity|]; split; [discriminate|apply F; reflexivity]|eauto].
    * split; [intros [x H]; discriminate|]. intros (_ & _ & H). apply F in H. discriminate.
Qed.

Lemma encodes_shaped sp scale o v : encodes_to sp scale o v <-> supported sp = true /\ shaped sp o /\ v = encode sp scale o.
Proof.
  unfold encodes_to, observation_input. simpl. destruct (supported sp); simpl; [|split; [discriminate|intros [H _]; discriminate]].
  destruct (fits sp o) eqn:E; simpl.
  - apply fits_iff in E. split; [intros H; injection H; intros; subst; auto|intros (_ & _ & ->); reflexivity].
  - split; [discriminate|]. intros (_ & H & _). apply fits_iff in H. congruence.
Qed.

Theorem by_rows sp batch scale rows out : observation_input sp batch scale rows = Returns out ->
  length out = length rows /\ forall k o, nth_error rows k = Some o -> exists v, nth_error out k = Some v /\ encodes_to sp scale o v.
Proof.
  intros H. assert (A : exists out, observation_input sp batch scale rows = Returns out) by eauto. apply accepts in A. destruct A as (S & _ & F).
  unfold observation_input in H. destruct (_ && _ && _); [|discriminate]. injection H as <-. split; [apply map_length|].
  intros k o K. exists (encode sp scale o). split; [apply map_nth_error; exact K|]. apply encodes_shaped. split; [exact S|]. split; [|reflexivity].
  rewrite Forall_forall in F. apply F. eapply nth_error_In; eauto.
Qed.

Lemma one_hot_len n z : length (one_hot n z) = n.
Proof. unfold one_hot. now rewrite map_length, seq_length. Qed.
Lemma one_hot_nth n z i : i < n -> nth_error (one_hot n z) i = Some (indicator z i).
Proof.
  intros H. unfold one_hot.
  assert (E : nth_error (seq 0 n) i = Some i).
  { rewrite (nth_error_nth' _ 0) by (now rewrite seq_length). now rewrite seq_nth. }
  rewrite (map_nth_error _ _ _ E). unfold indicator. f_equal. f_equal. destruct (Z.eq_dec z (Z.of_nat i)) as [->|N]; [now rewrite Z.eqb_refl|]. now apply Z.eqb_neq in N as ->.
Qed.

Theorem discrete n scale z v : encodes_to (Discrete n) scale (One z) v ->
  length v = n /\ forall i, i < n -> nth_error v i = Some (indicator z i).
Proof. intros H. apply encodes_shaped in H. destruct H as (_ & _ & ->). simpl. split; [apply one_hot_len|intros; now apply one_hot_nth]. Qed.

Theorem outside n scale z : ~ contains (Discrete n) (One z) -> encodes_to (Discrete n) scale (One z) (repeat (Num 0) n).
Proof.
  intros H. apply encodes_shaped. split; [reflexivity|]. split; [exact I|]. simpl. unfold one_hot. simpl in H.
  assert (G : forall s k, s + k <= n -> repeat (Num 0) k = map (fun i => Num (if Z.eqb z (Z.of_nat i) then 1 else 0)) (seq s k)).
  { intros s k. revert s. induction k as [|k IH]; intros s L; simpl; [reflexivity|]. rewrite <- IH by lia. f_equal.
    destruct (Z.eqb_spec z (Z.of_nat s)); [exfalso; apply H; lia|reflexivity]. }
  apply (G 0 n). lia.
Qed.

Lemma encode_multi nvec l : length l = length nvec -> length (encode (MultiDiscrete nvec) true (Ints l)) = list_sum nvec /\
  forall k n z i, nth_error nvec k = Some n -> nth_error l k = Some z -> i < n -> nth_error (encode (MultiDiscrete nvec) true (Ints l)) (list_sum (firstn k nvec) + i) = Some (indicator z i).
Proof.
  simpl. revert l. induction nvec as [|m nvec IH]; intros [|x l] L; simpl in *; try lia.
  - split; [reflexivity|]. intros [|k] n z i; discriminate.
  - injection L as L. destruct (IH l L) as [A B]. rewrite app_length, one_hot_len. split; [lia|].
    intros [|k] n z i; simpl.
    + intros E F Hi. injection E as <-. injection F as <-. rewrite nth_error_app1 by (now rewrite one_hot_len). now apply one_hot_nth.
    + intros E F Hi. rewrite nth_error_app2 by (rewrite one_hot_len; lia). rewrite one_hot_len.
      replace (m + list_sum (firstn k nvec) + i - m) with (list_sum (firstn k nvec) + i) by lia. eapply B; eauto.
Qed.
Theorem multi nvec scale l v : encodes_to (MultiDiscrete nvec) scale (Ints l) v ->
  length v = list_sum nvec /\ forall k n z i, nth_error nvec k = Some n -> nth_error l k = Some z -> i < n -> nth_error v (list_sum (firstn k nvec) + i) = Some (indicator z i).
Proof. intros H. apply encodes_shaped in H. destruct H as (_ & S & ->). simpl in S. exact (encode_multi nvec l S). Qed.

Theorem binary n scale l v : encodes_to (MultiBinary n) scale (Ints l) v -> v = map (fun z => Num (inject_Z z)) l.
Proof. intros H. apply encodes_shaped in H. destruct H as (_ & S & ->). reflexivity. Qed.

Theorem unscaled b l v : encodes_to (BoxF b) false (Floats l) v -> v = map Num l.
Proof. intros H. apply encodes_shaped in H. destruct H as (_ & S & ->). reflexivity. Qed.
Theorem unscaled_int sg bits b l v : encodes_to (BoxI sg bits b) false (Ints l) v -> v = map (fun z => Num (inject_Z z)) l.
Proof. intros H. apply encodes_shaped in H. destruct H as (_ & S & ->). reflexivity. Qed.

Lemma any_inf_false b : any_inf b = false <-> Forall finite b.
Proof.
  unfold any_inf. induction b as [|[[l|] [h|]] b IH]; simpl; split; intros H; try discriminate; auto; try (inversion H; subst; simpl in *; contradiction).
  - constructor; [exact I|apply IH; exact H].
  - apply IH. inversion H; auto.
Qed.
Theorem infinite b l v : Exists (fun p => ~ finite p) b -> encodes_to (BoxF b) true (Floats l) v -> v = map Num l.
Proof.
  intros E H. apply encodes_shaped in H. destruct H as (_ & S & ->). simpl. destruct (any_inf b) eqn:G; simpl; [reflexivity|].
  exfalso. apply any_inf_false in G. rewrite Exists_exists in E. destruct E as (p & P & N). rewrite Forall_forall in G. exact (N (G p P)).
Qed.
Theorem flat b l v : Forall pinned b -> encodes_to (BoxF b) true (Floats l) v -> v = map Num l.
Proof.
  intros E H. apply encodes_shaped in H. destruct H as (_ & S & ->). simpl.
  assert (G : existsb (fun p => negb (Qeq_bool (width_f p) 0)) b = false).
  { clear S. induction E as [|[[q|] [h|]] b P E IH]; simpl in *; try contradiction; [reflexivity|]. rewrite IH, orb_false_r.
    apply negb_false_iff, Qeq_bool_iff. unfold width_f. simpl. rewrite P. ring. }
  rewrite G, andb_false_r. reflexivity.
Qed.

Lemma nth_combine {A B} (l : list A) (b : list B) k : nth_error (combine l b) k = match nth_error l k, nth_error b k with Some x, Some y => Some (x, y) | _, _ => None end.
Proof. revert b k. induction l as [|x l IH]; intros [|y b] [|k]; simpl; auto. destruct (nth_error l k); reflexivity. Qed.

Lemma encode_scaled b l k x p : Forall finite b -> Exists (fun p => ~ pinned p) b -> nth_error l k = Some x -> nth_error b k = Some p ->
  nth_error (encode (BoxF b) true (Floats l)) k = Some (rescale x (fin (fst p)) (width_f p)).
Proof.
  intros F E X P. simpl. apply any_inf_false in F as F'. rewrite F'. simpl.
  assert (G : existsb (fun p => negb (Qeq_bool (width_f p) 0)) b = true).
  { apply existsb_exists. apply Exists_exists in E. destruct E as (q & Q & N). exists q. split; [exact Q|].
    apply negb_true_iff. destruct (Qeq_bool (width_f q) 0) eqn:Z; [|reflexivity]. exfalso. apply N. apply Qeq_bool_iff in Z.
    rewrite Forall_forall in F. specialize (F q Q). destruct q as [[q|] [h|]]; simpl in *; try contradiction. unfold width_f in Z. simpl in Z. lra. }
  rewrite G. erewrite map_nth_error; [|rewrite nth_combine, X, P; reflexivity]. reflexivity.
Qed.

Theorem scaled b l v : encodes_to (BoxF b) true (Floats l) v -> Forall finite b -> Exists (fun p => ~ pinned p) b ->
  forall k x lo hi, nth_error l k = Some x -> nth_error b k = Some (Fin lo, Fin hi) -> ~ (lo == hi)%Q -> nth_error v k = Some (Num (place lo hi x)).
Proof.
  intros H F E k x lo hi X P N. apply encodes_shaped in H. destruct H as (_ & S & ->). rewrite (encode_scaled _ _ _ _ _ F E X P).
  unfold rescale, divide, width_f. simpl. destruct (Qeq_bool (hi - lo) 0) eqn:Z; [|reflexivity]. apply Qeq_bool_iff in Z. exfalso. apply N. lra.
Qed.
Theorem mixed b l v : encodes_to (BoxF b) true (Floats l) v -> contains (BoxF b) (Floats l) -> Forall finite b -> Exists (fun p => ~ pinned p) b ->
  forall k p, nth_error b k = Some p -> pinned p -> nth_error v k = Some NaN.
Proof.
  intros H C F E k p P N. apply encodes_shaped in H. destruct H as (_ & S & ->). simpl in S, C.
  destruct (nth_error l k) as [x|] eqn:X.
  - rewrite (encode_scaled _ _ _ _ _ F E X P).
    assert (W : within p x). { clear - C P X. revert k P X. induction C; intros [|k]; simpl; try discriminate; [intros A B; congruence|eauto]. }
    destruct p as [[lo|] [hi|]]; simpl in N; try contradiction. unfold within in W. simpl in W. unfold rescale, divide, width_f. simpl.
    assert (Z : (hi - lo == 0)%Q) by lra. apply Qeq_bool_iff in Z. rewrite Z.
    assert (Y : (x - lo == 0)%Q) by lra. apply Qeq_bool_iff in Y. rewrite Y. reflexivity.
  - exfalso. apply nth_error_None in X. assert (k < length b) by (apply nth_error_Some; congruence). lia.
Qed.

Theorem place_spec l h : (l < h)%Q -> (place l h l == 0 /\ place l h h == 1)%Q /\ (forall x y, (x < y)%Q <-> (place l h x < place l h y)%Q) /\
  forall x, (0 <= place l h x <= 1)%Q <-> (l <= x <= h)%Q.
Proof.
  intros H. unfold place. assert (D : (0 < h - l)%Q) by lra. split; [split; field; lra|].
  assert (M : forall x y, (x < y)%Q <-> ((x - l) / (h - l) < (y - l) / (h - l))%Q).
  { intros x y. assert (Hx : ((x - l) / (h - l) * (h - l) == x - l)%Q) by (field; lra). assert (Hy : ((y - l) / (h - l) * (h - l) == y - l)%Q) by (field; lra).
    rewrite <- (Qmult_lt_r ((x - l) / (h - l)) ((y - l) / (h - l)) (h - l)) by exact D. rewrite Hx, Hy. split; intros; lra. }
  split; [exact M|]. intros x. assert (Hx : ((x - l) / (h - l) * (h - l) == x - l)%Q) by (field; lra).
  rewrite <- (Qmult_le_r 0 ((x - l) / (h - l)) (h - l)) by exact D. rewrite <- (Qmult_le_r ((x - l) / (h - l)) 1 (h - l)) by exact D. rewrite Hx. split; intros [A B]; split; lra.
Qed.

(** ** Integers *)
Lemma width_small (sg : bool) (bits : Z) (p : Z * Z) : (1 <= bits)%Z -> (0 <= snd p - fst p < 2 ^ (if sg then bits - 1 else bits))%Z -> width_i sg bits p = (snd p - fst p)%Z.
Proof.
  intros B H. unfold width_i. assert (T : (2 ^ bits = 2 * 2 ^ (bits - 1))%Z) by (rewrite <- Z.pow_succ_r by lia; f_equal; lia).
  destruct sg; [rewrite Z.mod_small by lia; lia|apply Z.mod_small; lia].
Qed.
Lemma width_wrap (bits : Z) (p : Z * Z) : (1 <= bits)%Z -> (2 ^ (bits - 1) <= snd p - fst p < 2 ^ bits)%Z -> width_i true bits p = (snd p - fst p - 2 ^ bits)%Z.
Proof.
  intros B H. unfold width_i. assert (T : (2 ^ bits = 2 * 2 ^ (bits - 1))%Z) by (rewrite <- Z.pow_succ_r by lia; f_equal; lia).
  assert (E : ((snd p - fst p + 2 ^ (bits - 1)) mod 2 ^ bits = snd p - fst p + 2 ^ (bits - 1) - 2 ^ bits)%Z).
  { symmetry. apply (Z.mod_unique_pos _ _ 1); lia. }
  rewrite E. lia.
Qed.
Lemma encode_int sg bits b l k x p : nth_error l k = Some x -> nth_error b k = Some p -> width_i sg bits p <> 0%Z ->
  nth_error (encode (BoxI sg bits b) true (Ints l)) k = Some (Num (inject_Z (x - fst p) / inject_Z (width_i sg bits p))).
Proof.
  intros X P W. simpl.
  assert (G : existsb (fun p => negb (Z.eqb (width_i sg bits p) 0)) b = true).
  { apply existsb_exists. exists p. split; [eapply nth_error_In; eauto|]. apply negb_true_iff. now apply Z.eqb_neq. }
  rewrite G. erewrite map_nth_error; [|rewrite nth_combine, X, P; reflexivity]. simpl. unfold rescale, divide.
  destruct (Qeq_bool (inject_Z (width_i sg bits p)) 0) eqn:Z.
  { exfalso. apply W. apply Qeq_bool_iff in Z. unfold Qeq in Z. simpl in Z. lia. }
  unfold inject_Z, Qminus, Qopp, Qplus. simpl. f_equal. f_equal. f_equal. f_equal. lia.
Qed.
Theorem integer sg bits b l v : encodes_to (BoxI sg bits b) true (Ints l) v -> (1 <= bits)%Z ->
  forall k x lo hi, nth_error l k = Some x -> nth_error b k = Some (lo, hi) -> (0 < hi - lo < 2 ^ (if sg then bits - 1 else bits))%Z ->
  exists q, nth_error v k = Some (Num q) /\ (q == place (inject_Z lo) (inject_Z hi) (inject_Z x))%Q.
Proof.
  intros H B k x lo hi X P W. apply encodes_shaped in H. destruct H as (_ & S & ->).
  assert (E : width_i sg bits (lo, hi) = (hi - lo)%Z) by (apply width_small; simpl; lia).
  eexists. split; [apply (encode_int _ _ _ _ _ _ _ X P); rewrite E; lia|]. rewrite E. simpl. unfold place, Z.sub. rewrite !inject_Z_plus, !inject_Z_opp. reflexivity.
Qed.
Theorem wraps bits b l v : encodes_to (BoxI true bits b) true (Ints l) v -> (1 <= bits)%Z ->
  forall k x lo hi, nth_error l k = Some x -> nth_error b k = Some (lo, hi) -> (2 ^ (bits - 1) <= hi - lo < 2 ^ bits)%Z -> (lo < x <= hi)%Z ->
  exists q, nth_error v k = Some (Num q) /\ (q < 0)%Q.
Proof.
  intros H B k x lo hi X P W C. apply encodes_shaped in H. destruct H as (_ & S & ->).
  assert (E : width_i true bits (lo, hi) = (hi - lo - 2 ^ bits)%Z) by (apply width_wrap; simpl; lia).
  eexists. split; [apply (encode_int _ _ _ _ _ _ _ X P); rewrite E; lia|]. rewrite E. simpl.
  assert (A : (0 < inject_Z (x - lo))%Q) by (change 0%Q with (inject_Z 0); rewrite <- Zlt_Qlt; lia).
  assert (D : (inject_Z (hi - lo - 2 ^ bits) < 0)%Q) by (change 0%Q with (inject_Z 0); rewrite <- Zlt_Qlt; lia).
  generalize dependent (inject_Z (x - lo)). generalize dependent (inject_Z (hi - lo - 2 ^ bits)). intros d D a A.
  assert (M : (a / d == - (a / - d))%Q) by (field; lra). rewrite M.
  assert (0 < a / - d)%Q; [|lra]. apply Qlt_shift_div_l; lra.
Qed.

(** ** Nothing is lost *)
Lemma indicator_eq z w n : (0 <= z < Z.of_nat n)%Z -> Forall2 same_num (one_hot n z) (one_hot n w) -> z = w.
Proof.
  intros H F. assert (I : Z.to_nat z < n) by lia.
  assert (G : forall k a b, Forall2 same_num a b -> forall x y, nth_error a k = Some x -> nth_error b k = Some y -> same_num x y).
  { intros k a b Q. revert k. induction Q; intros [|k] u t; simpl; try discriminate; [congruence|eauto]. }
  specialize (G _ _ _ F _ _ (one_hot_nth n z _ I) (one_hot_nth n w _ I)). unfold indicator, same_num in G. rewrite Z2Nat.id in G by lia.
  destruct (Z.eq_dec z z); [|congruence]. destruct (Z.eq_dec w z); [congruence|]. exfalso. lra.
Qed.
Lemma same_app a b c d : length a = length c -> Forall2 same_num (a ++ b) (c ++ d) -> Forall2 same_num a c /\ Forall2 same_num b d.
Proof.
  revert c. induction a as [|x a IH]; intros [|y c] L H; simpl in *; try lia; [auto|]. inversion H; subst. destruct (IH c) as [A B]; [lia|assumption|]. auto.
Qed.
Lemma same_map_num l m : Forall2 same_num (map Num l) (map Num m) -> Forall2 Qeq l m.
Proof. revert m. induction l as [|x l IH]; intros [|y m] H; simpl in *; inversion H; subst; auto. Qed.
Lemma same_map_int l m : Forall2 same_num (map (fun z => Num (inject_Z z)) l) (map (fun z => Num (inject_Z z)) m) -> l = m.
Proof.
  revert m. induction l as [|x l IH]; intros [|y m] H; simpl in *; inversion H; subst; auto. f_equal; [|auto].
  simpl in *. apply inject_Z_injective. assumption.
Qed.

Lemma distinct_box b l m : Forall proper b -> length l = length b -> length m = length b ->
  Forall2 same_num (map (fun xp => rescale (fst xp) (fin (fst (snd xp))) (width_f (snd xp))) (combine l b)) (map (fun xp => rescale (fst xp) (fin (fst (snd xp))) (width_f (snd xp))) (combine m b)) -> Forall2 Qeq l m.
Proof.
  intros P. revert l m. induction P as [|[[lo|] [hi|]] b H P IH]; intros [|x l] [|y m] L M F; simpl in *; try lia; try contradiction; auto.
  inversion F; subst. constructor; [|apply IH; auto; lia].
  unfold rescale, divide, width_f in H3. simpl in H3. destruct (Qeq_bool (hi - lo) 0) eqn:Z; [apply Qeq_bool_iff in Z; lra|]. simpl in H3.
  assert (Hx : ((x - lo) / (hi - lo) * (hi - lo) == x - lo)%Q) by (field; lra). assert (Hy : ((y - lo) / (hi - lo) * (hi - lo) == y - lo)%Q) by (field; lra).
  rewrite H3 in Hx. lra.
Qed.
Lemma distinct_int (sg : bool) (bits : Z) (b : list (Z * Z)) (l m : list Z) : (1 <= bits)%Z -> Forall (fun p => (0 < snd p - fst p < 2 ^ (if sg then bits - 1 else bits))%Z) b -> length l = length b -> length m = length b ->
  Forall2 same_num (map (fun xp => rescale (inject_Z (fst xp)) (inject_Z (fst (snd xp))) (inject_Z (width_i sg bits (snd xp)))) (combine l b)) (map (fun xp => rescale (inject_Z (fst xp)) (inject_Z (fst (snd xp))) (inject_Z (width_i sg bits (snd xp)))) (combine m b)) -> l = m.
Proof.
  intros B P. revert l m. induction P as [|[lo hi] b H P IH]; intros [|x l] [|y m] L M F; simpl in *; try lia; auto.
  inversion F; subst. f_equal; [|apply IH; auto; lia].
  rewrite (width_small sg bits (lo, hi)) in H3 by (simpl; lia). simpl in H3. unfold rescale, divide in H3.
  assert (D : (0 < inject_Z (hi - lo))%Q) by (change 0%Q with (inject_Z 0); rewrite <- Zlt_Qlt; lia). generalize dependent (inject_Z (hi - lo)). intros d H3 D.
  destruct (Qeq_bool d 0) eqn:Z; [apply Qeq_bool_iff in Z; lra|]. simpl in H3.
  apply inject_Z_injective. assert (Hx : ((inject_Z x - inject_Z lo) / d * d == inject_Z x - inject_Z lo)%Q) by (field; lra). assert (Hy : ((inject_Z y - inject_Z lo) / d * d == inject_Z y - inject_Z lo)%Q) by (field; lra).
  rewrite H3 in Hx. lra.
Qed.

Theorem injective sp scale o o' v v' : good_bounds sp -> contains sp o -> contains sp o' -> encodes_to sp scale o v -> encodes_to sp scale o' v' ->
  Forall2 same_num v v' -> same_obs o o'.
Proof.
  intros G C C' H H' F. apply encodes_shaped in H. apply encodes_shaped in H'. destruct H as (_ & S & ->). destruct H' as (_ & S' & ->).
  destruct sp as [n|b|sg bits b|n|nvec|]; destruct o as [z|l|l]; simpl in C, S; try contradiction; destruct o' as [w|m|m]; simpl in C', S'; try contradiction; simpl.
  - apply (indicator_eq z w n C F).
  - simpl in F. destruct (scale && negb (any_inf b) && existsb _ b); [exact (distinct_box b l m G S S' F)|apply same_map_num; exact F].
  - simpl in F, G. destruct G as [B G]. destruct (scale && existsb _ b); [exact (distinct_int sg bits b l m B G S S' F)|apply same_map_int; exact F].
  - apply same_map_int. exact F.
  - simpl in F. clear G. revert l m C C' S S' F. induction nvec as [|n nvec IH]; intros [|z l] [|w m] C C' S S' F; simpl in *; try lia; auto.
    apply same_app in F; [|now rewrite !one_hot_len]. destruct F as [A B]. inversion C; subst. inversion C'; subst.
    f_equal; [eapply indicator_eq; eauto|apply IH; auto].
Qed.

Theorem mlp_box b n l out : policy_input Mlp (BoxF b) n (map Floats l) = Returns out -> out = map (map Num) l.
Proof.
  unfold policy_input, observation_input. destruct (_ && _ && _); [|discriminate]. intros H. injection H as <-. rewrite map_map. reflexivity.
Qed.

Theorem accepts_iff sp batch scale rows : (exists out, observation_input sp batch scale rows = Returns out) <->
  sp <> Other /\ sp <> MultiDiscrete [] /\ (forall n, batch = Some n -> length rows = n) /\ Forall (shaped sp) rows.
Proof.
  rewrite accepts. assert (S : supported sp = true <-> sp <> Other /\ sp <> MultiDiscrete []).
  { destruct sp as [n|b|sg bits b|n|[|a nvec]|]; simpl; split; try discriminate; try (intros _; split; discriminate); try reflexivity; intros [A B]; congruence. }
  rewrite S. tauto.
Qed.
