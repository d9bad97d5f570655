(** Proofs about parameter-space helpers. *)
From Coq Require Import String List Arith ZArith QArith Qround Bool Lia Lqa.
From Verif Require Import Base BaseFacts Space_Model Space_Spec.
Import ListNotations.
Open Scope nat_scope.

(* ---------- scalars ---------- *)
Lemma veqb_same a b : veqb a b = true <-> same a b.
Proof.
  destruct a, b; simpl; try (split; [discriminate|tauto]).
  - apply Qeq_bool_iff.
  - apply String.eqb_eq.
Qed.
Lemma same_refl a : same a a.
Proof. destruct a; simpl; auto. reflexivity. Qed.
Lemma same_sym a b : same a b -> same b a.
Proof. destruct a, b; simpl; auto; intros H; rewrite H; reflexivity. Qed.
Lemma same_trans a b c : same a b -> same b c -> same a c.
Proof. destruct a, b, c; simpl; try tauto; intros H1 H2; rewrite H1; auto. Qed.

Lemma valid_same p a b : same a b -> valid_coord p a -> valid_coord p b.
Proof.
  intros S H. destruct p; simpl in *.
  - destruct H as (q & -> & (z & Hz) & H1 & H2). destruct b as [q0|]; simpl in S; [|tauto]. change (q == q0)%Q in S.
    exists q0. repeat split; [|rewrite <- S; auto..]. exists z. rewrite <- S. exact Hz.
  - destruct H as (q & -> & H1 & H2). destruct b as [q0|]; simpl in S; [|tauto]. change (q == q0)%Q in S.
    exists q0. repeat split; rewrite <- S; auto.
  - destruct H as (c & Hc & Hs). exists c. split; auto. eapply same_trans; eauto.
Qed.

(* ---------- dictionaries ---------- *)
Lemma dget_encode b : dict b -> forall k cs, In (k, PGrid cs) b ->
  dget (snd (encode_grid_to_discrete b)) k = Some (combine (seq 0 (length cs)) cs).
Proof.
  unfold dict, encode_grid_to_discrete. simpl.
  induction b as [|[k p] r IH]; simpl; [tauto|].
  intros ND k0 cs [E|Hin].
  - inversion E; subst. simpl. rewrite String.eqb_refl. reflexivity.
  - inversion ND; subst.
    assert (k <> k0). { intro; subst. apply H1. change k0 with (fst (k0, PGrid cs)). apply in_map; auto. }
    destruct p; simpl; try (apply IH; auto).
    destruct (String.eqb k k0) eqn:E; [apply String.eqb_eq in E; congruence|]. apply IH; auto.
Qed.

(* ---------- shifting the enumerate index ---------- *)
Lemma decode_shift a ind m b : forall i, decode_from (S i) (a :: ind) b m = decode_from i ind b m.
Proof. induction b as [|[k p] r IH]; intros i; simpl; auto. rewrite IH. reflexivity. Qed.
Lemma encode_shift a ind m b : forall i, encode_from (S i) (a :: ind) b m = encode_from i ind b m.
Proof. induction b as [|[k p] r IH]; intros i; simpl; auto. rewrite IH. reflexivity. Qed.
Lemma check_shift a ind b : forall i, check_from (S i) (a :: ind) b = check_from i ind b.
Proof. induction b as [|[k p] r IH]; intros i; simpl; auto. rewrite IH. reflexivity. Qed.

(* ---------- one coordinate ---------- *)
Definition enc1 (p : param) (v : val) : option val :=
  match p with
  | PGrid cs => match map fst (filter (fun nv => veqb (snd nv) v) (combine (seq 0 (length cs)) cs)) with
                | [n] => Some (VNum (inject_Z (Z.of_nat n)))
                | _ => None
                end
  | _ => Some v
  end.
Definition dec1 (p : param) (v : val) : option val :=
  match p with
  | PGrid cs => iget (combine (seq 0 (length cs)) cs) v
  | _ => Some v
  end.

Definition mapped (m : gmap) (b : space) :=
  forall k cs, In (k, PGrid cs) b -> dget m k = Some (combine (seq 0 (length cs)) cs).

Lemma mapped_tl m kp b : mapped m (kp :: b) -> mapped m b.
Proof. intros H k cs Hin. apply H. right; auto. Qed.

Lemma encode_cons m k p b v ind : mapped m ((k, p) :: b) ->
  encode_from 0 (v :: ind) ((k, p) :: b) m =
  match enc1 p v, encode_from 0 ind b m with Some w, Some ws => Some (w :: ws) | _, _ => None end.
Proof.
  intros M. cbn [encode_from nth_error]. rewrite encode_shift.
  destruct p; simpl; auto. rewrite (M k choices (or_introl eq_refl)). reflexivity.
Qed.
Lemma decode_cons m k p b v ind : mapped m ((k, p) :: b) ->
  decode_from 0 (v :: ind) ((k, p) :: b) m =
  match dec1 p v, decode_from 0 ind b m with Some w, Some ws => Some (w :: ws) | _, _ => None end.
Proof.
  intros M. cbn [decode_from nth_error]. rewrite decode_shift.
  destruct p; simpl; auto. rewrite (M k choices (or_introl eq_refl)). reflexivity.
Qed.

Lemma iget_combine cs : forall s q n, (q == inject_Z (Z.of_nat (s + n)))%Q ->
  iget (combine (seq s (length cs)) cs) (VNum q) = nth_error cs n.
Proof.
  induction cs as [|c cs IH]; intros s q n H; simpl.
  - destruct n; auto.
  - destruct (Qeq_bool (inject_Z (Z.of_nat s)) q) eqn:E.
    + apply Qeq_bool_iff in E. rewrite H in E.
      assert (Z.of_nat s = Z.of_nat (s + n))%Z by (apply inject_Z_injective; auto).
      assert (n = 0) by lia. subst. reflexivity.
    + destruct n as [|n].
      * rewrite Nat.add_0_r in H. exfalso.
        assert (Qeq_bool (inject_Z (Z.of_nat s)) q = true) by (apply Qeq_bool_iff; rewrite H; reflexivity).
        congruence.
      * simpl. apply IH. rewrite H. replace (s + S n) with (S s + n) by lia. reflexivity.
Qed.

Lemma filter_none cs v : forall s, (forall c, In c cs -> ~ same c v) ->
  filter (fun nv : nat * val => veqb (snd nv) v) (combine (seq s (length cs)) cs) = [].
Proof.
  induction cs as [|c cs IH]; intros s H; simpl; auto.
  destruct (veqb c v) eqn:E.
  - apply veqb_same in E. exfalso. apply (H c); simpl; auto.
  - apply IH. intros; apply H; simpl; auto.
Qed.

Lemma filter_unique cs v : forall s n c, nth_error cs n = Some c -> same c v ->
  (forall m d, nth_error cs m = Some d -> same d v -> m = n) ->
  map fst (filter (fun nv : nat * val => veqb (snd nv) v) (combine (seq s (length cs)) cs)) = [s + n].
Proof.
  induction cs as [|c0 cs IH]; intros s n c Hn Hs U; [destruct n; discriminate|].
  simpl. destruct (veqb c0 v) eqn:E.
  - apply veqb_same in E. assert (0 = n) by (eapply U; [reflexivity|auto]). subst n. simpl.
    rewrite filter_none; [rewrite Nat.add_0_r; reflexivity|].
    intros d Hd Hsd. apply In_nth_error in Hd. destruct Hd as [m Hm].
    assert (S m = 0) by (eapply U; [exact Hm|auto]). lia.
  - destruct n as [|n].
    + simpl in Hn. inversion Hn; subst. apply veqb_same in Hs. congruence.
    + rewrite (IH (S s) n c Hn Hs); [f_equal; lia|].
      intros m d Hm Hd. assert (S m = S n) by (eapply U; [exact Hm|auto]). lia.
Qed.

Lemma filter_two cs v : forall s n1 n2 c1 c2, n1 <> n2 ->
  nth_error cs n1 = Some c1 -> nth_error cs n2 = Some c2 -> same c1 v -> same c2 v ->
  2 <= length (filter (fun nv : nat * val => veqb (snd nv) v) (combine (seq s (length cs)) cs)).
Proof.
  assert (one : forall cs s n c, nth_error cs n = Some c -> same c v ->
     1 <= length (filter (fun nv : nat * val => veqb (snd nv) v) (combine (seq s (length cs)) cs))).
  { clear. induction cs as [|c0 cs IH]; intros s n c Hn Hs; [destruct n; discriminate|].
    simpl. destruct (veqb c0 v) eqn:E; simpl; [lia|].
    destruct n; simpl in Hn; [inversion Hn; subst; apply veqb_same in Hs; congruence|eauto]. }
  induction cs as [|c0 cs IH]; intros s n1 n2 c1 c2 Hne H1 H2 S1 S2; [destruct n1; discriminate|].
  simpl. destruct (veqb c0 v) eqn:E; simpl.
  - destruct n1, n2; try congruence; simpl in *.
    + pose proof (one cs (S s) _ _ H2 S2). lia.
    + pose proof (one cs (S s) _ _ H1 S1). lia.
    + pose proof (one cs (S s) _ _ H1 S1). lia.
  - destruct n1; simpl in H1; [inversion H1; subst; apply veqb_same in S1; congruence|].
    destruct n2; simpl in H2; [inversion H2; subst; apply veqb_same in S2; congruence|].
    eapply (IH (S s) n1 n2); eauto.
Qed.

(** Encoding one admissible value. *)
Lemma enc1_ok p v : (forall cs, p = PGrid cs -> no_repeats cs) -> valid_coord p v ->
  exists w, enc1 p v = Some w /\ valid_coord (encode_param p) w /\
            exists v', dec1 p w = Some v' /\ same v' v.
Proof.
  intros NR H. destruct p.
  - exists v. simpl. repeat split; auto. exists v; split; auto using same_refl.
  - exists v. simpl. repeat split; auto. exists v; split; auto using same_refl.
  - destruct H as (c & Hin & Hs). apply In_nth_error in Hin. destruct Hin as [n Hn].
    assert (E : enc1 (PGrid choices) v = Some (VNum (inject_Z (Z.of_nat n)))).
    { unfold enc1. rewrite (filter_unique choices v 0 n c Hn Hs); [reflexivity|].
      intros m d Hm Hd. eapply (NR choices eq_refl); eauto.
      eapply same_trans; eauto using same_sym. }
    rewrite E. eexists; split; [reflexivity|]. split.
    + simpl. eexists; split; [reflexivity|].
      assert (n < length choices) by (apply nth_error_Some; congruence).
      repeat split.
      * exists (Z.of_nat n). reflexivity.
      * change 0%Q with (inject_Z 0). rewrite <- Zle_Qle. lia.
      * assert (inject_Z (Z.of_nat n) + 1 <= inject_Z (Z.of_nat (length choices)))%Q; [|lra].
        change 1%Q with (inject_Z 1). rewrite <- inject_Z_plus, <- Zle_Qle. lia.
    + simpl. rewrite (iget_combine choices 0 _ n) by reflexivity.
      exists c. split; auto.
Qed.

(** Decoding one admissible integer code. *)
Lemma dec1_ok p w : valid_coord (encode_param p) w ->
  exists v, dec1 p w = Some v /\ valid_coord p v /\
    ((forall cs, p <> PGrid cs) -> v = w) /\
    (forall cs, p = PGrid cs -> exists n, same w (VNum (inject_Z (Z.of_nat n))) /\ nth_error cs n = Some v) /\
    ((forall cs, p = PGrid cs -> no_repeats cs) -> exists w', enc1 p v = Some w' /\ same w' w).
Proof.
  intros H. destruct p; simpl in H.
  - exists w. simpl. repeat split; auto; try congruence. exists w; auto using same_refl.
  - exists w. simpl. repeat split; auto; try congruence. exists w; auto using same_refl.
  - destruct H as (q & -> & (z & Hz) & H0 & H1).
    assert (0 <= z)%Z. { rewrite Hz in H0. change 0%Q with (inject_Z 0) in H0. rewrite <- Zle_Qle in H0. lia. }
    assert (z < Z.of_nat (length choices))%Z.
    { rewrite Hz in H1. assert (inject_Z z + 1 <= inject_Z (Z.of_nat (length choices)))%Q by lra.
      change 1%Q with (inject_Z 1) in H2. rewrite <- inject_Z_plus, <- Zle_Qle in H2. lia. }
    destruct (nth_error choices (Z.to_nat z)) as [c|] eqn:En;
      [|apply nth_error_None in En; lia].
    assert (Hq : (q == inject_Z (Z.of_nat (Z.to_nat z)))%Q) by (rewrite Hz, Z2Nat.id by lia; reflexivity).
    exists c. cbn [dec1]. rewrite (iget_combine choices 0 _ (Z.to_nat z)) by exact Hq.
    repeat split; auto.
    + simpl. exists c. split; [eapply nth_error_In; eauto|apply same_refl].
    + intro N; exfalso; eapply N; reflexivity.
    + intros cs E; inversion E; subst. exists (Z.to_nat z). split; auto.
    + intros NR. unfold enc1. rewrite (filter_unique choices c 0 (Z.to_nat z) c En (same_refl c)).
      * eexists; split; [reflexivity|]. simpl. rewrite Hq. reflexivity.
      * intros m d Hm Hd. eapply (NR choices eq_refl); eauto.
Qed.

(* ---------- whole individuals ---------- *)
Definition encoded_space (b : space) : space := fst (encode_grid_to_discrete b).

Lemma grids_tl kp b : grids_no_repeats (kp :: b) -> grids_no_repeats b.
Proof. intros H k cs Hin. eapply H. right; eauto. Qed.

Lemma encode_decode_gen m b x : mapped m b -> grids_no_repeats b -> valid b x ->
  exists e, encode_from 0 x b m = Some e /\
    Forall2 (fun kp v => valid_coord (encode_param (snd kp)) v) b e /\
    exists x', decode_from 0 e b m = Some x' /\ Forall2 same x' x.
Proof.
  intros M NR V. induction V as [|[k p] v b x Hv V IH].
  - exists []. simpl. repeat split; auto. exists []. auto.
  - destruct IH as (e & E1 & E2 & x' & E3 & E4); [eapply mapped_tl; eauto|eapply grids_tl; eauto|].
    destruct (enc1_ok p v) as (w & W1 & W2 & v' & W3 & W4).
    { intros cs ->. apply (NR k cs). left; auto. } { exact Hv. }
    exists (w :: e). rewrite encode_cons, W1, E1 by auto. repeat split; auto.
    exists (v' :: x'). rewrite decode_cons, W3, E3 by auto. auto.
Qed.

Lemma encode_decode b x : dict b -> grids_no_repeats b -> valid b x ->
  exists e, encode_grid_indv_to_discrete x b (snd (encode_grid_to_discrete b)) = Some e /\
    valid (fst (encode_grid_to_discrete b)) e /\
    exists x', decode_discrete_to_grid e b (snd (encode_grid_to_discrete b)) = Some x' /\ Forall2 same x' x.
Proof.
  intros D NR V.
  destruct (encode_decode_gen (snd (encode_grid_to_discrete b)) b x (dget_encode b D) NR V)
    as (e & E1 & E2 & E3).
  exists e. repeat split; auto. unfold valid, encode_grid_to_discrete. simpl.
  clear -E2. induction E2; simpl; constructor; auto.
Qed.

Lemma decode_encode_gen m b e : mapped m b ->
  Forall2 (fun kp v => valid_coord (encode_param (snd kp)) v) b e ->
  exists x, decode_from 0 e b m = Some x /\ valid b x /\
    (forall i k p w, nth_error b i = Some (k, p) -> nth_error e i = Some w ->
       exists v, nth_error x i = Some v /\
         ((forall cs, p <> PGrid cs) -> v = w) /\
         (forall cs, p = PGrid cs -> exists n, same w (VNum (inject_Z (Z.of_nat n))) /\ nth_error cs n = Some v)) /\
    (grids_no_repeats b -> exists e', encode_from 0 x b m = Some e' /\ Forall2 same e' e).
Proof.
  intros M F. induction F as [|[k p] w b e Hw F IH].
  - exists []. simpl. repeat split; auto; try constructor.
    + intros [|i]; discriminate.
    + intros _. exists []. auto.
  - destruct IH as (x & E1 & E2 & E3 & E4); [eapply mapped_tl; eauto|].
    destruct (dec1_ok p w Hw) as (v & V1 & V2 & V3 & V4 & V5).
    exists (v :: x). rewrite decode_cons, V1, E1 by auto. repeat split; auto.
    + constructor; auto.
    + intros [|i] k' p' w' Hb He; simpl in *.
      * inversion Hb; inversion He; subst. exists v. auto.
      * eapply E3; eauto.
    + intros NR. destruct E4 as (e' & E5 & E6); [eapply grids_tl; eauto|].
      destruct V5 as (w' & V6 & V7). { intros cs ->. apply (NR k cs). left; auto. }
      exists (w' :: e'). rewrite encode_cons, V6, E5 by auto. auto.
Qed.

Lemma valid_encoded b e : valid (fst (encode_grid_to_discrete b)) e <->
  Forall2 (fun kp v => valid_coord (encode_param (snd kp)) v) b e.
Proof.
  unfold valid, encode_grid_to_discrete. simpl. revert e.
  induction b; intros e; simpl; split; intros H; inversion H; subst; constructor; auto; apply IHb; auto.
Qed.

Lemma decode_encode b e : dict b -> valid (fst (encode_grid_to_discrete b)) e ->
  exists x, decode_discrete_to_grid e b (snd (encode_grid_to_discrete b)) = Some x /\ valid b x /\
    (forall i k p w, nth_error b i = Some (k, p) -> nth_error e i = Some w ->
       exists v, nth_error x i = Some v /\
         ((forall cs, p <> PGrid cs) -> v = w) /\
         (forall cs, p = PGrid cs -> exists n, same w (VNum (inject_Z (Z.of_nat n))) /\ nth_error cs n = Some v)) /\
    (grids_no_repeats b -> exists e',
       encode_grid_indv_to_discrete x b (snd (encode_grid_to_discrete b)) = Some e' /\ Forall2 same e' e).
Proof.
  intros D V. apply valid_encoded in V. apply decode_encode_gen; auto. exact (dget_encode b D).
Qed.

Lemma encoded_shape b :
  Forall2 (fun kp kp' => fst kp' = fst kp /\
    match snd kp with
    | PGrid cs => exists hi, snd kp' = PInt 0 hi /\ (hi == inject_Z (Z.of_nat (length cs)) - 1)%Q
    | p => snd kp' = p
    end) b (fst (encode_grid_to_discrete b)).
Proof.
  unfold encode_grid_to_discrete. simpl. induction b as [|[k p] b IH]; simpl; constructor; auto.
  split; auto. destruct p; simpl; auto. eexists; split; reflexivity.
Qed.

(* ---------- validation ---------- *)
Lemma is_integer_num_spec q : is_integer_num (VNum q) = true <-> is_int q.
Proof.
  simpl. rewrite Qeq_bool_iff. split; intros H.
  - eexists; eauto.
  - destruct H as [z Hz]. rewrite Hz at 1. rewrite Hz. rewrite Qfloor_Z. reflexivity.
Qed.

Lemma check_spec b : forall x, check_mixed_individual x b = true <-> valid b (firstn (length b) x).
Proof.
  unfold check_mixed_individual. induction b as [|[k p] b IH]; intros x; simpl.
  - split; auto. intros _. constructor.
  - destruct x as [|v x]; simpl.
    + split; [discriminate|]. intros H; inversion H.
    + rewrite check_shift, andb_true_iff, IH. 
      assert (match p with
       | PInt lo hi => is_integer_num v && in_range_b lo hi v
       | PFloat lo hi => in_range_b lo hi v
       | PGrid cs => existsb (fun c : val => veqb v c) cs
       end = true <-> valid_coord p v).
      { destruct p; simpl.
        - destruct v as [q|s]; simpl; [|split; [discriminate|intros (q & E & _); discriminate]].
          rewrite !andb_true_iff, !Qle_bool_iff. pose proof (is_integer_num_spec q) as I. simpl in I.
          split.
          + intros (H1 & H2 & H3). exists q. repeat split; auto. apply I; auto.
          + intros (q' & E & H1 & H2 & H3). inversion E; subst. split; auto. apply I; auto.
        - destruct v as [q|s]; simpl; [|split; [discriminate|intros (q & E & _); discriminate]].
          rewrite !andb_true_iff, !Qle_bool_iff. split.
          + intros (H2 & H3). exists q. auto.
          + intros (q' & E & H2 & H3). inversion E; subst. auto.
        - rewrite existsb_exists. split; intros (c & H1 & H2); exists c; split; auto.
          + apply same_sym, veqb_same; auto.
          + apply veqb_same, same_sym; auto. }
      rewrite H. split; [intros []; constructor; auto|intros H0; inversion H0; auto].
Qed.

Lemma valid_length b x : valid b x -> length x = length b.
Proof. intros H. apply Forall2_length in H. auto. Qed.

Lemma repeated_choice_gen m b : mapped m b -> forall x i k cs v n1 n2 c1 c2,
  nth_error b i = Some (k, PGrid cs) -> nth_error x i = Some v ->
  n1 <> n2 -> nth_error cs n1 = Some c1 -> nth_error cs n2 = Some c2 -> same c1 v -> same c2 v ->
  encode_from 0 x b m = None.
Proof.
  intros M. induction b as [|[k p] b IH]; intros x i k' cs v n1 n2 c1 c2 Hb Hx Hne H1 H2 S1 S2;
    [destruct i; discriminate|].
  destruct x as [|w x]; [destruct i; discriminate|].
  rewrite encode_cons by auto.
  destruct i as [|i]; simpl in Hb, Hx.
  - inversion Hb; inversion Hx; subst.
    pose proof (filter_two cs v 0 n1 n2 c1 c2 Hne H1 H2 S1 S2) as F.
    unfold enc1. rewrite <- (map_length fst) in F.
    destruct (map fst _) as [|a [|b' l]]; simpl in F; try lia. reflexivity.
  - erewrite IH; eauto using mapped_tl. destruct (enc1 p w); reflexivity.
Qed.

Lemma repeated_choice b x i k cs v n1 n2 c1 c2 : dict b -> valid b x ->
  nth_error b i = Some (k, PGrid cs) -> nth_error x i = Some v ->
  n1 <> n2 -> nth_error cs n1 = Some c1 -> nth_error cs n2 = Some c2 -> same c1 v -> same c2 v ->
  check_mixed_individual x b = true /\
  encode_grid_indv_to_discrete x b (snd (encode_grid_to_discrete b)) = None.
Proof.
  intros D V Hb Hx Hne H1 H2 S1 S2. split.
  - apply check_spec. rewrite <- (valid_length _ _ V), firstn_all. auto.
  - eapply repeated_choice_gen; eauto. exact (dget_encode b D).
Qed.
