(** Proofs about the continuous-to-discrete transformation and the bound repair. *)
From Coq Require Import String List Arith ZArith QArith Qround Bool FinFun Lia Lqa.
From Verif Require Import Base BaseFacts Space_Model Space_Spec.
Import ListNotations.
Open Scope nat_scope.

(* ---------- truncation ---------- *)
Lemma Qfloor_nonneg q : (0 <= q)%Q -> (0 <= Qfloor q)%Z.
Proof. intros H. change 0%Z with (Qfloor 0). apply Qfloor_resp_le. exact H. Qed.
Lemma Qceiling_nonpos q : (q <= 0)%Q -> (Qceiling q <= 0)%Z.
Proof. intros H. change 0%Z with (Qceiling 0). apply Qceiling_resp_le. exact H. Qed.

Lemma trunc_mono a b : (a <= b)%Q -> (trunc a <= trunc b)%Z.
Proof.
  intros H. unfold trunc. destruct (Qle_bool 0 a) eqn:Ea, (Qle_bool 0 b) eqn:Eb; qprop.
  - apply Qfloor_resp_le; auto.
  - lra.
  - pose proof (Qfloor_nonneg _ Eb). assert (a <= 0)%Q by lra. pose proof (Qceiling_nonpos _ H1). lia.
  - apply Qceiling_resp_le; auto.
Qed.
Lemma trunc_Z z : trunc (inject_Z z) = z.
Proof. unfold trunc. destruct (Qle_bool 0 _); [apply Qfloor_Z|apply Qceiling_Z]. Qed.
Global Instance trunc_Proper : Proper (Qeq ==> eq) trunc.
Proof.
  intros a b H. apply Z.le_antisymm; apply trunc_mono; rewrite H; apply Qle_refl.
Qed.

(* ---------- integer lists ---------- *)
Lemma in_zrange a b z : In z (zrange a b) <-> (a <= z < b)%Z.
Proof.
  unfold zrange. rewrite in_map_iff. split.
  - intros (k & <- & Hk). apply in_seq in Hk. lia.
  - intros H. exists (Z.to_nat (z - a)). split; [lia|]. apply in_seq. lia.
Qed.
Lemma zrange_length a b : length (zrange a b) = Z.to_nat (b - a).
Proof. unfold zrange. rewrite map_length, seq_length. reflexivity. Qed.
Lemma zrange_NoDup a b : NoDup (zrange a b).
Proof.
  unfold zrange. apply FinFun.Injective_map_NoDup; [|apply seq_NoDup].
  intros x y H. lia.
Qed.

Lemma zremove_Some z l : In z l -> exists l', zremove z l = Some l' /\ S (length l') = length l.
Proof.
  induction l as [|a l IH]; simpl; [tauto|]. intros H.
  destruct (Z.eqb_spec a z); [exists l; auto|].
  destruct IH as (l' & E & L); [tauto|]. rewrite E. exists (a :: l'). simpl. auto.
Qed.
Lemma zremove_None z l : ~ In z l -> zremove z l = None.
Proof.
  induction l as [|a l IH]; simpl; auto. intros H.
  destruct (Z.eqb_spec a z); [tauto|]. rewrite IH; tauto.
Qed.
Lemma zremove_In z l l' : NoDup l -> zremove z l = Some l' -> forall w, In w l' <-> (In w l /\ w <> z).
Proof.
  revert l'. induction l as [|a l IH]; simpl; [discriminate|]. intros l' ND H w. inversion ND; subst.
  destruct (Z.eqb_spec a z).
  - inversion H; subst. split; [intros Hw; split; [tauto|intro; subst; tauto]|intros [[->|] ?]; tauto].
  - destruct (zremove z l) as [r|] eqn:E; [|discriminate]. inversion H; subst. simpl.
    rewrite (IH _ H3 eq_refl). split; [intros [->|[]]; auto|intros [[->|] ?]; auto].
Qed.

Lemma choice_In {A} (l : list A) k x : choice l k = Some x -> In x l.
Proof. apply nth_error_In. Qed.
Lemma choice_total {A} (l : list A) k : l <> [] -> exists x, choice l k = Some x.
Proof.
  intros H. unfold choice. destruct (nth_error l (k mod length l)) eqn:E; eauto.
  apply nth_error_None in E. assert (length l <> 0) by (destruct l; simpl; congruence).
  pose proof (Nat.mod_upper_bound k (length l) H0). lia.
Qed.
Lemma choice_all {A} (l : list A) x : In x l -> exists k, choice l k = Some x.
Proof.
  intros H. apply In_nth_error in H. destruct H as [k Hk]. exists k. unfold choice.
  rewrite Nat.mod_small; auto. apply nth_error_Some. congruence.
Qed.
Lemma choice_nil {A} k : choice (@nil A) k = None.
Proof. unfold choice. destruct (k mod _); reflexivity. Qed.

(* ---------- mutate_discrete ---------- *)
Section Mutate.
Context (expf : Q -> Q).

(** The integer the code would return without any perturbation. *)
Definition kept (x lb ub : Q) : Z := Z.min (trunc ub) (Z.max (trunc lb) (trunc x)).

Lemma clamp_eq z lb ub : 
  (let z := if (z <? lb)%Z then lb else z in if (ub <? z)%Z then ub else z) = Z.min ub (Z.max lb z).
Proof. cbv zeta. destruct (Z.ltb_spec z lb); [destruct (Z.ltb_spec ub lb)|destruct (Z.ltb_spec ub z)]; lia. Qed.

Lemma mutate_inv x xmin xmax lb ub alpha m rand pick z :
  mutate_discrete expf x xmin xmax lb ub alpha m rand pick = Some z ->
  exists z0, z = Z.min (trunc ub) (Z.max (trunc lb) z0) /\
    (z0 = trunc x \/
     (m = Sigmoid \/ m = MinMax) /\ exists l, zremove (trunc x) (zrange (trunc lb) (trunc ub + 1)) = Some l /\ choice l pick = Some z0).
Proof.
  unfold mutate_discrete. cbv zeta.
  set (P := match zremove (trunc x) (zrange (trunc lb) (trunc ub + 1)) with
            | Some choices => choice choices pick | None => None end).
  intros H.
  match type of H with match ?r with _ => _ end = _ => destruct r as [z0|] eqn:E end; [|discriminate].
  rewrite clamp_eq in H. inversion H; subst z. exists z0. split; auto.
  assert (HP : P = Some z0 -> exists l, zremove (trunc x) (zrange (trunc lb) (trunc ub + 1)) = Some l /\ choice l pick = Some z0).
  { unfold P. intros HP. destruct (zremove _ _); [eauto|discriminate]. }
  destruct m.
  - left. congruence.
  - destruct (_ || _); [right; auto|left; congruence].
  - destruct (_ || _); [right; auto|left; congruence].
  - discriminate.
Qed.

Lemma mutate_range x xmin xmax lb ub alpha m rand pick z : (lb <= ub)%Q ->
  mutate_discrete expf x xmin xmax lb ub alpha m rand pick = Some z ->
  (trunc lb <= z <= trunc ub)%Z.
Proof.
  intros Hb H. apply mutate_inv in H. destruct H as (z0 & -> & _).
  pose proof (trunc_mono _ _ Hb). lia.
Qed.

Lemma mutate_value x xmin xmax lb ub alpha m rand pick z :
  mutate_discrete expf x xmin xmax lb ub alpha m rand pick = Some z ->
  z = kept x lb ub \/ ((m = Sigmoid \/ m = MinMax) /\ z <> trunc x).
Proof.
  intros H. apply mutate_inv in H. destruct H as (z0 & -> & [->|(Hm & l & Hl & Hc)]).
  - left. reflexivity.
  - right. split; auto. apply choice_In in Hc.
    apply (zremove_In _ _ _ (zrange_NoDup _ _) Hl) in Hc. destruct Hc as [Hc Hn].
    apply in_zrange in Hc. lia.
Qed.

Lemma perturb_total x lb ub pick : (lb <= x)%Q -> (x <= ub)%Q -> (trunc lb < trunc ub)%Z ->
  exists z, match zremove (trunc x) (zrange (trunc lb) (trunc ub + 1)) with
            | Some choices => choice choices pick | None => None end = Some z /\
            z <> trunc x /\ (trunc lb <= z <= trunc ub)%Z.
Proof.
  intros H1 H2 H3. pose proof (trunc_mono _ _ H1). pose proof (trunc_mono _ _ H2).
  destruct (zremove_Some (trunc x) (zrange (trunc lb) (trunc ub + 1))) as (l & E & L).
  { apply in_zrange. lia. }
  rewrite E. destruct (choice_total l pick) as (z & Hz).
  { intros ->. rewrite zrange_length in L. simpl in L. lia. }
  exists z. split; auto. apply choice_In in Hz. apply (zremove_In _ _ _ (zrange_NoDup _ _) E) in Hz.
  destruct Hz as [Hz Hn]. apply in_zrange in Hz. split; auto. lia.
Qed.

Lemma mutate_total x xmin xmax lb ub alpha m rand pick : m <> OtherMethod ->
  (lb <= x)%Q -> (x <= ub)%Q -> (m = NearestInt \/ (trunc lb < trunc ub)%Z) ->
  exists z, mutate_discrete expf x xmin xmax lb ub alpha m rand pick = Some z.
Proof.
  intros Hm H1 H2 H3. unfold mutate_discrete. cbv zeta.
  destruct H3 as [->|H3]; [eexists; reflexivity|].
  destruct (perturb_total x lb ub pick H1 H2 H3) as (z & E & _).
  destruct m; [| | |congruence].
  - eexists; reflexivity.
  - destruct (_ || _); [rewrite E|]; eexists; reflexivity.
  - destruct (_ || _); [rewrite E|]; eexists; reflexivity.
Qed.

(** The cases in which the code always perturbs. *)
Lemma mutate_forced x xmin xmax lb ub alpha m rand pick :
  (m = Sigmoid /\ (xmin == xmax)%Q \/ m = MinMax /\ (qabs xmin + xmax == 0)%Q) ->
  mutate_discrete expf x xmin xmax lb ub alpha m rand pick =
  match (match zremove (trunc x) (zrange (trunc lb) (trunc ub + 1)) with
         | Some choices => choice choices pick | None => None end) with
  | None => None
  | Some z => Some (Z.min (trunc ub) (Z.max (trunc lb) z))
  end.
Proof.
  intros [[-> H]|[-> H]]; unfold mutate_discrete; cbv zeta.
  - assert (Qeq_bool xmax xmin = true) by (apply Qeq_bool_iff; rewrite H; reflexivity).
    rewrite H0, orb_true_r. destruct (zremove (trunc x) (zrange (trunc lb) (trunc ub + 1))) as [l|]; auto. destruct (choice l pick) as [z|]; auto. rewrite <- clamp_eq. reflexivity.
  - assert (Qeq_bool (qabs xmin + xmax) 0 = true) by (apply Qeq_bool_iff; auto).
    rewrite H0, orb_true_r. destruct (zremove (trunc x) (zrange (trunc lb) (trunc ub + 1))) as [l|]; auto. destruct (choice l pick) as [z|]; auto. rewrite <- clamp_eq. reflexivity.
Qed.

Lemma mutate_forced_differs x xmin xmax lb ub alpha m rand pick :
  (m = Sigmoid /\ (xmin == xmax)%Q \/ m = MinMax /\ (qabs xmin + xmax == 0)%Q) ->
  (lb <= x)%Q -> (x <= ub)%Q -> (trunc lb < trunc ub)%Z ->
  exists z, mutate_discrete expf x xmin xmax lb ub alpha m rand pick = Some z /\ z <> trunc x.
Proof.
  intros F H1 H2 H3. rewrite mutate_forced by auto.
  destruct (perturb_total x lb ub pick H1 H2 H3) as (z & E & Hn & Hr). rewrite E.
  eexists; split; [reflexivity|]. lia.
Qed.

Lemma mutate_forced_reaches x xmin xmax lb ub alpha m rand w :
  (m = Sigmoid /\ (xmin == xmax)%Q \/ m = MinMax /\ (qabs xmin + xmax == 0)%Q) ->
  (lb <= x)%Q -> (x <= ub)%Q -> (trunc lb <= w <= trunc ub)%Z -> w <> trunc x ->
  exists pick, mutate_discrete expf x xmin xmax lb ub alpha m rand pick = Some w.
Proof.
  intros F H1 H2 H3 H4. pose proof (trunc_mono _ _ H1). pose proof (trunc_mono _ _ H2).
  destruct (zremove_Some (trunc x) (zrange (trunc lb) (trunc ub + 1))) as (l & E & L).
  { apply in_zrange. lia. }
  assert (In w l). { apply (zremove_In _ _ _ (zrange_NoDup _ _) E). split; auto. apply in_zrange. lia. }
  destruct (choice_all l w H5) as (pick & Hp). exists pick.
  rewrite mutate_forced by auto. rewrite E, Hp. f_equal. lia.
Qed.

Lemma mutate_single_fails x xmin xmax lb ub alpha m rand pick :
  (m = Sigmoid /\ (xmin == xmax)%Q \/ m = MinMax /\ (qabs xmin + xmax == 0)%Q) ->
  trunc lb = trunc ub ->
  mutate_discrete expf x xmin xmax lb ub alpha m rand pick = None.
Proof.
  intros F H. rewrite mutate_forced by auto. rewrite H.
  assert (E : zrange (trunc ub) (trunc ub + 1) = [trunc ub]).
  { unfold zrange. replace (trunc ub + 1 - trunc ub)%Z with 1%Z by lia. simpl. f_equal. lia. }
  rewrite E. simpl. destruct (Z.eqb_spec (trunc ub) (trunc x)); [rewrite choice_nil|]; reflexivity.
Qed.

(** Without a small enough draw and without forcing nothing is perturbed. *)
Lemma mutate_kept x xmin xmax lb ub alpha m rand pick : m <> OtherMethod ->
  (m = NearestInt \/ (alpha <= rand)%Q /\ ~ (m = Sigmoid /\ (xmin == xmax)%Q) /\ ~ (m = MinMax /\ (qabs xmin + xmax == 0)%Q)) ->
  mutate_discrete expf x xmin xmax lb ub alpha m rand pick = Some (kept x lb ub).
Proof.
  intros Hm H. unfold mutate_discrete. cbv zeta. unfold kept.
  destruct m; [| | |congruence].
  - rewrite <- clamp_eq. reflexivity.
  - destruct H as [H|(H1 & H2 & _)]; [discriminate|].
    apply Qltb_false in H1. rewrite H1, andb_false_r.
    destruct (Qeq_bool xmax xmin) eqn:E; [apply Qeq_bool_iff in E; exfalso; apply H2; split; auto; rewrite E; reflexivity|].
    simpl. rewrite <- clamp_eq. reflexivity.
  - destruct H as [H|(H1 & _ & H2)]; [discriminate|].
    apply Qltb_false in H1. rewrite H1, andb_false_r.
    destruct (Qeq_bool (qabs xmin + xmax) 0) eqn:E; [apply Qeq_bool_iff in E; exfalso; apply H2; split; auto|].
    simpl. rewrite <- clamp_eq. reflexivity.
Qed.

(* ---------- ensure_discrete ---------- *)
Lemma is_int_trunc q : is_int q -> (inject_Z (trunc q) == q)%Q.
Proof. intros [z Hz]. rewrite Hz at 1. rewrite trunc_Z. symmetry. exact Hz. Qed.

Lemma set_nth_split {A} (a : list A) x b y : set_nth (a ++ x :: b) (length a) y = a ++ y :: b.
Proof. induction a; simpl; congruence. Qed.

Definition dim_ok (d : dimn) (m : imethod) : Prop :=
  (d_lo d <= d_hi d)%Q /\ (d_int d = true -> m = NearestInt \/ (trunc (d_lo d) < trunc (d_hi d))%Z).

Lemma ensure_discrete_gen alpha m rand pick : m <> OtherMethod -> forall ds pre vec,
  Forall (fun d => dim_ok d m) ds ->
  Forall2 (fun d x => (d_lo d <= x)%Q /\ (x <= d_hi d)%Q) ds vec ->
  exists vec', ensure_discrete_from expf alpha m rand pick (length pre) ds (pre ++ vec) = Some (pre ++ vec') /\
    Forall2 (fun (dx : dimn * Q) y => if d_int (fst dx)
              then exists z, y = inject_Z z /\ (trunc (d_lo (fst dx)) <= z <= trunc (d_hi (fst dx)))%Z /\
                             (m = NearestInt -> z = trunc (snd dx))
              else y = snd dx) (combine ds vec) vec'.
Proof.
  intros Hm ds. induction ds as [|d ds IH]; intros pre vec Hd F.
  - inversion F; subst. exists []. simpl. split; auto.
  - inversion F as [|? x ? v [H1 H2] F']; subst. inversion Hd as [|? ? [Hd1 Hd2] Hd']; subst.
    cbn [ensure_discrete_from]. destruct (d_int d) eqn:Ei.
    + rewrite nth_error_app2, Nat.sub_diag by lia. simpl nth_error.
      destruct (mutate_total x (qlist_min (pre ++ x :: v)) (qlist_max (pre ++ x :: v)) (d_lo d) (d_hi d) alpha m
                  (rand (length pre)) (pick (length pre)) Hm H1 H2 (Hd2 eq_refl)) as [z Hz].
      rewrite Hz, set_nth_split.
      destruct (IH (pre ++ [inject_Z z]) v Hd' F') as (v' & E & F2).
      rewrite app_length in E. simpl in E. rewrite Nat.add_1_r in E. rewrite <- !app_assoc in E. simpl in E.
      exists (inject_Z z :: v'). split; auto. simpl. constructor; auto. simpl. rewrite Ei.
      exists z. split; auto. split; [eapply mutate_range; eauto|].
      intros ->. apply mutate_value in Hz. destruct Hz as [Hz|[[?|?] _]]; try discriminate.
      rewrite Hz. unfold kept. pose proof (trunc_mono _ _ H1). pose proof (trunc_mono _ _ H2). lia.
    + destruct (IH (pre ++ [x]) v Hd' F') as (v' & E & F2).
      rewrite app_length in E. simpl in E. rewrite Nat.add_1_r in E. rewrite <- !app_assoc in E. simpl in E.
      exists (x :: v'). split; auto. simpl. constructor; auto. simpl. rewrite Ei. reflexivity.
Qed.

Lemma inside_dims ds v : inside (dim_bounds ds) v <->
  Forall2 (fun d x => (d_lo d <= x)%Q /\ (x <= d_hi d)%Q) ds v.
Proof.
  unfold inside, dim_bounds. revert v. induction ds; intros v; simpl; split; intros H; inversion H; subst; constructor; auto; apply IHds; auto.
Qed.

Lemma ensure_discrete_ok alpha m rand pick ds vec : m <> OtherMethod -> wf_dims ds ->
  (m = NearestInt \/ Forall (fun d => d_int d = true -> (d_lo d < d_hi d)%Q) ds) ->
  inside (dim_bounds ds) vec ->
  exists vec', ensure_discrete expf alpha m rand pick ds vec = Some vec' /\
    feasible ds vec' /\
    (forall i d x y, nth_error ds i = Some d -> nth_error vec i = Some x -> nth_error vec' i = Some y ->
       (d_int d = false -> y = x) /\ (m = NearestInt -> d_int d = true -> y = inject_Z (trunc x))).
Proof.
  intros Hm W HR HI. apply inside_dims in HI.
  assert (D : Forall (fun d => dim_ok d m) ds).
  { rewrite Forall_forall in *. intros d Hd. destruct (proj1 (Forall_forall _ _) W d Hd) as [W1 W2]. split; auto.
    intros Ei. destruct HR as [->|HR]; auto. right. 
    pose proof (HR d Hd Ei) as L. destruct (W2 Ei) as [I1 I2].
    apply is_int_trunc in I1. apply is_int_trunc in I2. rewrite <- I1, <- I2 in L.
    rewrite <- Zlt_Qlt in L. auto. }
  destruct (ensure_discrete_gen alpha m rand pick Hm ds [] vec D HI) as (v' & E & F).
  exists v'. split; [exact E|]. clear E D HR. revert v' F W. induction HI as [|d x ds v [H1 H2] HI IH]; intros v' F W.
  - simpl in F. inversion F; subst. split; [constructor|]. intros [|i]; discriminate.
  - simpl in F. inversion F as [|? y ? v'' Hy F']; subst. inversion W as [|? ? [W1 W2] W']; subst.
    destruct (IH _ F' W') as [G1 G2]. split.
    + constructor; auto. simpl in Hy. destruct (d_int d) eqn:Ei.
      * destruct Hy as (z & -> & Hz & _). destruct (W2 eq_refl) as [I1 I2].
        apply is_int_trunc in I1. apply is_int_trunc in I2.
        repeat split; [rewrite <- I1; rewrite <- Zle_Qle; lia|rewrite <- I2; rewrite <- Zle_Qle; lia|].
        intros _. exists z. reflexivity.
      * subst. repeat split; auto. discriminate.
    + intros [|i] d' x' y' Hd Hx Hy'; simpl in *.
      * inversion Hd; inversion Hx; inversion Hy'; subst. destruct (d_int d') eqn:Ei.
        -- split; [discriminate|]. intros Hn _. destruct Hy as (z & -> & _ & Hz). rewrite Hz; auto.
        -- split; [auto|discriminate].
      * eapply G2; eauto.
Qed.
End Mutate.

(* ---------- ensure_bounds ---------- *)

Lemma clip1_parts lo hi x : (lo <= hi)%Q ->
  (if Qltb x lo then [lo] else []) ++ (if Qltb hi x then [hi] else []) ++
  (if Qle_bool lo x && Qle_bool x hi then [x] else []) = [clip1 lo hi x].
Proof.
  intros H. unfold clip1. destruct (Qltb x lo) eqn:E1, (Qltb hi x) eqn:E2,
    (Qle_bool lo x) eqn:E3, (Qle_bool x hi) eqn:E4; simpl; auto; qprop; lra.
Qed.

Lemma clip_vec_cons lo hi x b v : (lo <= hi)%Q ->
  clip_vec ((lo, hi) :: b) (x :: v) = clip1 lo hi x :: clip_vec b v.
Proof.
  intros H. cbn [clip_vec]. rewrite app_assoc, app_assoc, <- (app_assoc (if Qltb x lo then _ else _)).
  rewrite clip1_parts by auto. reflexivity.
Qed.

Lemma clip1_inside lo hi x : (lo <= hi)%Q -> (lo <= clip1 lo hi x)%Q /\ (clip1 lo hi x <= hi)%Q.
Proof. intros. unfold clip1. destruct (Qltb x lo) eqn:E1, (Qltb hi x) eqn:E2; qprop; lra. Qed.
Lemma clip1_id lo hi x : (lo <= x)%Q -> (x <= hi)%Q -> clip1 lo hi x = x.
Proof.
  intros. unfold clip1. destruct (Qltb x lo) eqn:E1; qprop; [lra|].
  destruct (Qltb hi x) eqn:E2; qprop; [lra|auto].
Qed.
Lemma clip1_nearest lo hi x w : (lo <= w)%Q -> (w <= hi)%Q -> (dist (clip1 lo hi x) x <= dist w x)%Q.
Proof.
  intros. unfold clip1, dist.
  destruct (Qltb x lo) eqn:E1; [|destruct (Qltb hi x) eqn:E2];
  repeat match goal with |- context [Qle_bool ?a ?b] => destruct (Qle_bool a b) eqn:? end; qprop; lra.
Qed.

Lemma clip_vec_spec b : proper_bounds b -> forall v, length v = length b ->
  inside b (clip_vec b v) /\
  (inside b v -> clip_vec b v = v) /\
  (forall w, inside b w -> forall i x y z, nth_error v i = Some x ->
      nth_error (clip_vec b v) i = Some y -> nth_error w i = Some z -> (dist y x <= dist z x)%Q).
Proof.
  intros P. induction b as [|[lo hi] b IH]; intros v L.
  - destruct v; [|discriminate]. simpl. split; [constructor|]. split; auto. intros w _ [|i]; discriminate.
  - destruct v as [|x v]; [discriminate|]. inversion P; subst. simpl in H1.
    destruct (IH H2 v) as (I1 & I2 & I3); [simpl in L; lia|].
    rewrite clip_vec_cons by auto. split; [|split].
    + constructor; auto. simpl. apply clip1_inside; auto.
    + intros H. inversion H; subst. simpl in *. rewrite I2 by auto. f_equal. apply clip1_id; tauto.
    + intros w Hw [|i] x0 y z Hx Hy Hz; inversion Hw; subst; simpl in *.
      * inversion Hx; inversion Hy; inversion Hz; subst. apply clip1_nearest; tauto.
      * eapply I3; eauto.
Qed.

Lemma inside_length b v : inside b v -> length v = length b.
Proof. intros H. symmetry. eapply Forall2_length; eauto. Qed.

Lemma ensure_bounds_shift a vec b : forall i, ensure_bounds_from (S i) (a :: vec) b = ensure_bounds_from i vec b.
Proof. induction b as [|[lo hi] b IH]; intros i; simpl; auto. rewrite IH. reflexivity. Qed.

(** Exact behaviour on any vector: the numbers are clipped, NaN coordinates vanish. *)
Definition drop_nan (lo hi : Q) (x : fnum) : list fnum :=
  match x with Num q => [Num (clip1 lo hi q)] | NaN => [] end.

Lemma ensure_bounds_exact b : proper_bounds b -> forall vec, length b <= length vec ->
  ensure_bounds vec b =
  Some (flat_map (fun lhx => drop_nan (fst (fst lhx)) (snd (fst lhx)) (snd lhx)) (combine b vec)).
Proof.
  unfold ensure_bounds. intros P. induction b as [|[lo hi] b IH]; intros vec L; simpl; auto.
  destruct vec as [|x vec]; simpl in L; [lia|]. inversion P; subst. simpl in H1.
  simpl nth_error. cbv iota. rewrite ensure_bounds_shift, IH by (auto; lia). cbn [combine flat_map fst snd].
  f_equal. rewrite app_assoc, app_assoc, <- (app_assoc (if fltb x (Num lo) then _ else _)). f_equal.
  destruct x as [q|]; simpl; auto.
  pose proof (clip1_parts lo hi q H1) as E. apply (f_equal (map Num)) in E.
  rewrite !map_app in E. simpl in E. rewrite <- E.
  destruct (Qltb q lo), (Qltb hi q), (Qle_bool lo q && Qle_bool q hi); reflexivity.
Qed.

Lemma ensure_bounds_numbers b vec : proper_bounds b -> length vec = length b ->
  ensure_bounds (map Num vec) b = Some (map Num (clip_vec b vec)).
Proof.
  intros P L. rewrite ensure_bounds_exact by (auto; rewrite map_length; lia). f_equal.
  revert vec L. induction b as [|[lo hi] b IH]; intros vec L; [destruct vec; reflexivity|].
  destruct vec as [|x v]; [discriminate|]. inversion P; subst. simpl in H1.
  rewrite clip_vec_cons by auto. simpl. f_equal. apply IH; auto.
Qed.

Lemma ensure_bounds_short b : forall vec, length vec < length b -> ensure_bounds vec b = None.
Proof.
  unfold ensure_bounds. induction b as [|[lo hi] b IH]; intros vec L; simpl in L; [lia|].
  simpl. destruct vec as [|x vec]; simpl; auto. rewrite ensure_bounds_shift, IH; auto. simpl in L. lia.
Qed.

Lemma trunc_spec q : drops_fraction q (trunc q).
Proof.
  unfold drops_fraction, trunc. destruct (Qle_bool 0 q) eqn:E; qprop; split; intros H.
  - pose proof (Qfloor_le q). pose proof (Qlt_floor q). rewrite inject_Z_plus in H1. change (inject_Z 1) with 1%Q in H1. split; lra.
  - assert (H0 : (q == 0)%Q) by lra. assert (H1 : Qfloor q = 0%Z) by (rewrite (Qfloor_comp q 0 H0); reflexivity). rewrite H1. change (inject_Z 0) with 0%Q. split; lra.
  - lra.
  - pose proof (Qle_ceiling q). pose proof (Qceiling_lt q). unfold Zminus in H1.
    rewrite inject_Z_plus in H1. change (inject_Z (- (1))) with (-(1))%Q in H1. split; lra.
Qed.

Lemma clip_vec_keeps b : proper_bounds b -> forall v, length v = length b ->
  forall i lo hi x, nth_error b i = Some (lo, hi) -> nth_error v i = Some x ->
  (lo <= x)%Q -> (x <= hi)%Q -> nth_error (clip_vec b v) i = Some x.
Proof.
  intros P. induction b as [|[lo hi] b IH]; intros v L i lo' hi' x Hb Hv H1 H2; [destruct i; discriminate|].
  destruct v as [|y v]; [discriminate|]. inversion P; subst. simpl in H3. rewrite clip_vec_cons by auto.
  destruct i as [|i]; simpl in *.
  - inversion Hb; inversion Hv; subst. rewrite clip1_id; auto.
  - eapply IH; eauto.
Qed.

Lemma ensure_bounds_projection b vec : proper_bounds b -> length vec = length b ->
  exists v', ensure_bounds (map Num vec) b = Some (map Num v') /\
    inside b v' /\
    (forall i lo hi x, nth_error b i = Some (lo, hi) -> nth_error vec i = Some x ->
       (lo <= x)%Q -> (x <= hi)%Q -> nth_error v' i = Some x) /\
    (forall w, inside b w -> forall i x y z, nth_error vec i = Some x ->
       nth_error v' i = Some y -> nth_error w i = Some z -> (dist y x <= dist z x)%Q) /\
    ensure_bounds (map Num v') b = Some (map Num v').
Proof.
  intros P L. exists (clip_vec b vec). destruct (clip_vec_spec b P vec L) as (I1 & I2 & I3).
  repeat split; auto.
  - apply ensure_bounds_numbers; auto.
  - apply clip_vec_keeps; auto.
  - pose proof (inside_length _ _ I1) as L'. rewrite ensure_bounds_numbers by auto.
    destruct (clip_vec_spec b P _ L') as (_ & J2 & _). rewrite J2; auto.
Qed.

(** All coordinates that are NaN disappear from the result, the others move left. *)
Lemma ensure_bounds_nan b vec : proper_bounds b -> length vec = length b ->
  exists out, ensure_bounds vec b = Some out /\
    length out + length (filter (fun x => match x with NaN => true | _ => false end) vec) = length b.
Proof.
  intros P L. rewrite ensure_bounds_exact by (auto; lia). eexists; split; [reflexivity|].
  revert vec L. induction b as [|[lo hi] b IH]; intros vec L; [destruct vec; simpl in *; lia|].
  destruct vec as [|x vec]; [discriminate|]. inversion P; subst. simpl in L.
  cbn [combine flat_map fst snd filter length]. rewrite app_length.
  pose proof (IH H2 vec ltac:(lia)). destruct x; simpl in *; lia.
Qed.

Lemma nan_shift : exists b vec out lo hi y,
  proper_bounds b /\ length vec = length b /\ ensure_bounds vec b = Some out /\
  nth_error b 0 = Some (lo, hi) /\ nth_error out 0 = Some (Num y) /\ (hi < y)%Q.
Proof.
  exists [(0, 1); (5, 9)]%Q, [NaN; Num 7], [Num 7], 0%Q, 1%Q, 7%Q.
  split; [repeat constructor; simpl; unfold Qle; simpl; lia|]. repeat split.
Qed.
