(** Proofs about the optimization environment: action mapping. *)
From Coq Require Import String List Arith ZArith QArith Qround Bool Lia Lqa Permutation Morphisms.
From Verif Require Import Base BaseFacts Space_Model Space_Spec Space_Facts Space_Proofs Opt_Model Opt_Spec Opt_Facts Opt_Facts2
  Data_Proofs Env_Model Env_Spec.
Import ListNotations.
Open Scope nat_scope.

Lemma env_dim_eq p : env_dim p = Dim (integral p) (low p) (high p).
Proof. destruct p; reflexivity. Qed.
Lemma wf_high p : wf_param p -> (low p <= high p)%Q /\ (integral p = true -> is_int (low p) /\ is_int (high p)).
Proof.
  destruct p as [lo hi|lo hi|cs]; simpl; intros H.
  - tauto.
  - split; auto. discriminate.
  - assert (1 <= Z.of_nat (length cs))%Z by (destruct cs; [congruence|simpl length; lia]). split.
    + apply Qle_trans with (inject_Z (Z.of_nat (length cs) - 1)).
      * change 0%Q with (inject_Z 0). rewrite <- Zle_Qle. lia.
      * unfold Z.sub. rewrite inject_Z_plus, inject_Z_opp. change (inject_Z 1) with 1%Q. apply Qle_refl.
    + intros _. split; [exists 0%Z; reflexivity|]. exists (Z.of_nat (length cs) - 1)%Z.
      unfold Z.sub. rewrite inject_Z_plus, inject_Z_opp. reflexivity.
Qed.
Lemma wf_dims_env b : Forall (fun kp => wf_param (snd kp)) b -> wf_dims (env_dims b).
Proof.
  intros H. unfold wf_dims, env_dims. induction H as [|kp b Hp F IH]; simpl; constructor; auto.
  rewrite env_dim_eq. simpl. apply wf_high; auto.
Qed.
Lemma feasible_env b s : feasible (env_dims b) s <-> observable b s.
Proof.
  unfold feasible, observable, env_dims. revert s. induction b as [|kp b IH]; intros s; simpl; split; intros H; inversion H; subst; constructor;
    try (apply IH; auto); unfold in_range in *; rewrite env_dim_eq in *; simpl in *; auto.
Qed.

(* ---------- decoding ---------- *)
Lemma no_grid_coord p q : is_grid p = false -> in_range p q -> valid_coord p (VNum q).
Proof. unfold in_range. destruct p; simpl; intros E (H1 & H2 & H3); try discriminate; eauto 6. Qed.
Lemma enc_coord p q : in_range p q -> valid_coord (encode_param p) (VNum q).
Proof. unfold in_range. destruct p; simpl; intros (H1 & H2 & H3); eauto 7. Qed.

Lemma decode_ok b s : dict b -> observable b s ->
  exists x, env_decode b s = Some x /\ valid b x /\ represents b s x.
Proof.
  intros D O. unfold env_decode. destruct (grid_flag b) eqn:G.
  - assert (V : valid (fst (encode_grid_to_discrete b)) (map VNum s)).
    { apply valid_encoded. clear - O. induction O; simpl; constructor; auto using enc_coord. }
    destruct (decode_encode b _ D V) as (x & X1 & X2 & X3 & _). exists x. repeat split; auto.
    + symmetry. eapply F2_len; eauto.
    + symmetry. eapply F2_len; eauto.
    + intros i [k p] q v Hb Hs Hx. destruct (X3 i k p (VNum q) Hb) as (v' & V1 & V2 & V3).
      { rewrite nth_error_map, Hs. reflexivity. }
      assert (v' = v) by congruence. subst v'. simpl. destruct p as [lo hi|lo hi|cs]; simpl; try (apply V2; congruence).
      destruct (V3 cs eq_refl) as (n & N1 & N2). exists n. auto.
  - exists (map VNum s). repeat split; auto.
    + unfold valid. clear D. unfold grid_flag in G. induction O as [|kp q b s H O IH]; simpl in *; constructor.
      * apply no_grid_coord; auto. destruct (is_grid (snd kp)); auto.
      * apply IH. destruct (is_grid (snd kp)); auto. discriminate.
    + symmetry. eapply F2_len; eauto.
    + rewrite map_length. symmetry. eapply F2_len; eauto.
    + intros i kp q v Hb Hs Hx. rewrite nth_error_map, Hs in Hx. simpl in Hx. inversion Hx; subst.
      assert (Gi : is_grid (snd kp) = false).
      { destruct (is_grid (snd kp)) eqn:E; auto. assert (existsb (fun kp => is_grid (snd kp)) b = true).
        { apply existsb_exists. exists kp. split; auto. eapply nth_error_In; eauto. }
        unfold grid_flag in G. congruence. }
      destruct (snd kp); simpl in *; auto. discriminate.
Qed.

(* ---------- whole actions ---------- *)
Definition fix1 (d : dimn) (y : Q) : Q := clip1 (d_lo d) (d_hi d) (if d_int d then inject_Z (trunc y) else y).
Lemma clip_fix1 ds : wf_dims ds -> forall v, length v = length ds ->
  clip_vec (map (fun d => (d_lo d, d_hi d)) ds) (env_discrete ds v) = map2 fix1 ds v.
Proof.
  intros W. induction W as [|d ds [W1 W2] W IH]; intros [|y v] L; simpl in L; try discriminate; auto.
  cbn [map env_discrete map2]. rewrite clip_vec_cons by auto. f_equal. apply IH. lia.
Qed.

Lemma fix1_range p y : wf_param p -> in_range p (fix1 (env_dim p) y).
Proof.
  intros W. destruct (wf_high p W) as [W1 W2]. rewrite env_dim_eq. unfold fix1, in_range. simpl.
  destruct (clip1_inside (low p) (high p) (if integral p then inject_Z (trunc y) else y) W1) as [C1 C2]. repeat split; auto.
  intros E. rewrite E. destruct (W2 E). unfold clip1. destruct (Qltb _ _); auto. destruct (Qltb _ _); auto. eexists; reflexivity.
Qed.
Lemma fix1_feasible b : Forall (fun kp => wf_param (snd kp)) b -> forall v, length v = length b ->
  observable b (map2 fix1 (env_dims b) v).
Proof.
  intros W. induction W as [|kp b Wp W IH]; intros [|y v] L; simpl in *; try discriminate; constructor.
  - apply fix1_range; auto.
  - apply IH. lia.
Qed.

Lemma affine_map p a : (action_map1 (env_dim p) a == affine p a)%Q.
Proof. rewrite env_dim_eq. unfold action_map1, affine. simpl. field. Qed.

Lemma drops_Proper q q' z : (q == q')%Q -> drops_fraction q z -> drops_fraction q' z.
Proof. intros E [H1 H2]. split; intros H; [destruct H1|destruct H2]; try lra; split; lra. Qed.

Lemma clip1_low lo hi x : (lo <= hi)%Q -> (x <= lo)%Q -> (clip1 lo hi x == lo)%Q.
Proof. intros H1 H2. unfold clip1. destruct (Qltb x lo) eqn:E1; qprop; try reflexivity. destruct (Qltb hi x) eqn:E2; qprop; lra. Qed.
Lemma clip1_high lo hi x : (lo <= hi)%Q -> (hi <= x)%Q -> (clip1 lo hi x == hi)%Q.
Proof. intros H1 H2. unfold clip1. destruct (Qltb x lo) eqn:E1; qprop; [lra|]. destruct (Qltb hi x) eqn:E2; qprop; lra. Qed.
Lemma clip1_mid lo hi x : (lo <= x)%Q -> (x <= hi)%Q -> clip1 lo hi x = x.
Proof. intros H1 H2. unfold clip1. destruct (Qltb x lo) eqn:E1; qprop; [lra|]. destruct (Qltb hi x) eqn:E2; qprop; auto; lra. Qed.

Lemma affine_le p a a' : (low p <= high p)%Q -> (a <= a')%Q -> (affine p a <= affine p a')%Q.
Proof.
  intros H1 H2. unfold affine. apply Qplus_le_r. apply Qmult_le_compat_r; lra.
Qed.
Lemma affine_m1 p : (affine p (-1) == low p)%Q. Proof. unfold affine. ring. Qed.
Lemma affine_p1 p : (affine p 1 == high p)%Q. Proof. unfold affine. ring. Qed.

Lemma scaled_ok p a : wf_param p -> scaled p a (fix1 (env_dim p) (action_map1 (env_dim p) a)).
Proof.
  intros W. destruct (wf_high p W) as [W1 W2]. pose proof (affine_map p a) as E.
  set (y := action_map1 (env_dim p) a) in *. rewrite env_dim_eq. unfold fix1, scaled. simpl.
  pose proof (affine_m1 p) as M1. pose proof (affine_p1 p) as M2.
  split; [|split].
  - intros H. apply clip1_low; auto. pose proof (affine_le p a (-1) W1 H). destruct (integral p) eqn:I; [|lra].
    destruct (W2 eq_refl) as [I1 _]. apply is_int_trunc in I1. rewrite <- I1, <- Zle_Qle. apply trunc_mono. lra.
  - intros H. apply clip1_high; auto. pose proof (affine_le p 1 a W1 H). destruct (integral p) eqn:I; [|lra].
    destruct (W2 eq_refl) as [_ I1]. apply is_int_trunc in I1. rewrite <- I1, <- Zle_Qle. apply trunc_mono. lra.
  - intros H1 H2. pose proof (affine_le p (-1) a W1 H1). pose proof (affine_le p a 1 W1 H2). destruct (integral p) eqn:I.
    + exists (trunc y). split; [eapply drops_Proper; [exact E|apply trunc_spec]|].
      destruct (W2 eq_refl) as [I1 I2]. apply is_int_trunc in I1. apply is_int_trunc in I2.
      rewrite clip1_mid; [reflexivity| |].
      * rewrite <- I1, <- Zle_Qle. apply trunc_mono. lra.
      * rewrite <- I2, <- Zle_Qle. apply trunc_mono. lra.
    + rewrite clip1_mid by lra. exact E.
Qed.

Lemma map2_map2 {A B C D} (f : A -> C -> D) (g : A -> B -> C) la : forall lb, map2 f la (map2 g la lb) = map2 (fun a b => f a (g a b)) la lb.
Proof. induction la as [|a la IH]; intros [|b lb]; simpl; auto. f_equal; auto. Qed.
Lemma map2_len' {A B C} (f : A -> B -> C) la : forall lb, length la = length lb -> length (map2 f la lb) = length la.
Proof. induction la as [|a la IH]; intros [|b lb]; simpl; intros H; try discriminate; auto. Qed.
Lemma env_dims_length b : length (env_dims b) = length b.
Proof. apply map_length. Qed.

Section Proofs.
Context (fit : list val -> Q) (set_order : list Z -> list Z)
  (act_sample : nat -> action) (obs_sample : nat -> list Q) (randint : nat -> Z -> Z -> Z) (c : econf).
Local Notation b := (ec_space c).
Local Notation new := (env_new set_order act_sample obs_sample c).
Local Notation step := (env_step fit obs_sample randint c).

(** Counter and flag after a step that maps to [v], [st1]. *)
Definition ticked (st1 : estate) : estate :=
  if S (n_counter st1) =? ec_len c then EState (n_full st1) (n_index st1) true 0 (n_t st1)
  else EState (n_full st1) (n_index st1) (n_done st1) (S (n_counter st1)) (n_t st1).
Lemma step_by sp a st v st1 : dict b -> observable b v ->
  env_map obs_sample randint c sp a st = Some (v, st1) ->
  exists x, step sp st a = Some (EResult v (as_max (ec_mode c) (fit x)) (n_done (ticked st1)) x, ticked st1) /\
    valid b x /\ represents b v x.
Proof.
  intros D O M. destruct (decode_ok b v D O) as (x & X1 & X2 & X3). exists x.
  unfold env_step. rewrite M. cbn [bind fst snd]. rewrite X1. cbn [bind]. auto.
Qed.

Lemma new_MAll sp st : ec_meth c = MAll -> new = Some (sp, st) -> env_aspace set_order c = Some sp.
Proof.
  intros E H. unfold env_new in H. destruct (env_aspace set_order c) as [sp'|]; [|discriminate]. cbn [bind] in H.
  unfold env_reset in H. rewrite E in H. cbn in H. congruence.
Qed.
Lemma aspace_meth sp : env_aspace set_order c = Some sp ->
  match sp with ADiscrete _ => ec_meth c = MOne | _ => ec_meth c = MAll end.
Proof.
  unfold env_aspace. destruct (ec_meth c), (forallb d_int (env_dims b)); try discriminate; try (destruct (traverse _ _ _)); simpl; try discriminate;
    intros H; inversion H; auto.
Qed.
Lemma new_aspace sp st : new = Some (sp, st) -> env_aspace set_order c = Some sp.
Proof.
  unfold env_new. destruct (env_aspace set_order c) as [sp'|]; [|discriminate]. cbn [bind].
  destruct (env_reset _ _ _ _) as [r|]; [|discriminate]. cbn [bind]. congruence.
Qed.

(* ---------- the box ---------- *)
Lemma box_map st a : wf_space b -> env_aspace set_order c = Some ABox -> length a = length b ->
  env_map obs_sample randint c ABox (ActBox a) st = Some (map2 (fun d y => fix1 d (action_map1 d y)) (env_dims b) a, st).
Proof.
  intros [D W] E L. pose proof (aspace_meth _ E) as M. simpl in M. unfold env_map, whole_action, action_map. rewrite M.
  rewrite env_dims_length, L, Nat.eqb_refl. cbn [bind]. rewrite map2_len' by (rewrite env_dims_length; auto).
  rewrite env_dims_length, Nat.eqb_refl. cbn [bind]. rewrite clip_fix1.
  - rewrite map2_map2. reflexivity.
  - apply wf_dims_env; auto.
  - rewrite map2_len'; rewrite ?env_dims_length; auto.
Qed.

Lemma nth_map2_env (f : dimn -> Q -> Q) sp0 : forall a i kp q y, nth_error sp0 i = Some kp -> nth_error a i = Some y ->
  nth_error (map2 f (env_dims sp0) a) i = Some q -> q = f (env_dim (snd kp)) y.
Proof.
  induction sp0 as [|k0 sp0 IH]; intros [|y0 a] [|i] kp q y H1 H2 H3; simpl in *; try discriminate.
  - congruence.
  - eapply IH; eauto.
Qed.

Theorem box_ok sp0 st0 : wf_space b -> new = Some (sp0, st0) -> sp0 = ABox ->
  forall st a, length a = length b ->
  exists r st', step ABox st (ActBox a) = Some (r, st') /\ valid b (r_x r) /\ observable b (r_state r) /\ represents b (r_state r) (r_x r) /\
    r_reward r = as_max (ec_mode c) (fit (r_x r)) /\
    (forall i kp y q, nth_error b i = Some kp -> nth_error a i = Some y -> nth_error (r_state r) i = Some q -> scaled (snd kp) y q).
Proof.
  intros W N -> st a L. pose proof (new_aspace _ _ N) as A. pose proof (box_map st a W A L) as M. destruct W as [D W].
  assert (O : observable b (map2 (fun d y => fix1 d (action_map1 d y)) (env_dims b) a)).
  { rewrite <- (map2_map2 fix1 action_map1). apply fix1_feasible; auto. rewrite map2_len'; rewrite ?env_dims_length; auto. }
  destruct (step_by _ _ _ _ _ D O M) as (x & X1 & X2 & X3). eexists _, _. split; [exact X1|]. simpl. do 4 (split; [auto|]).
  intros i kp y q H1 H2 H3. rewrite (nth_map2_env _ _ _ _ _ _ _ H1 H2 H3). apply scaled_ok.
  rewrite Forall_forall in W. apply W. eapply nth_error_In; eauto.
Qed.

(** Preimages. *)
Definition unmap (p : param) (q : Q) : Q :=
  if Qeq_bool (low p) (high p) then 0%Q else (2 * ((q - low p) / (high p - low p)) - 1)%Q.
Lemma unmap_box p q : in_range p q -> (-1 <= unmap p q)%Q /\ (unmap p q <= 1)%Q /\ (affine p (unmap p q) == q)%Q.
Proof.
  intros (H1 & H2 & _). unfold unmap. destruct (Qeq_bool (low p) (high p)) eqn:E.
  - apply Qeq_bool_iff in E. unfold affine. repeat split; try lra.
  - apply Qeq_bool_neq in E. assert (P : (0 < high p - low p)%Q).
    { destruct (Qlt_le_dec (low p) (high p)); [lra|]. exfalso. apply E. lra. }
    assert (R0 : (0 <= (q - low p) / (high p - low p))%Q).
    { apply Qle_shift_div_l; auto. lra. }
    assert (R1 : ((q - low p) / (high p - low p) <= 1)%Q).
    { apply Qle_shift_div_r; auto. lra. }
    repeat split; try lra. unfold affine. field. lra.
Qed.
Lemma unmap_fix p q : wf_param p -> in_range p q -> (fix1 (env_dim p) (action_map1 (env_dim p) (unmap p q)) == q)%Q.
Proof.
  intros W R. destruct (unmap_box p q R) as (B1 & B2 & B3). destruct (scaled_ok p (unmap p q) W) as (_ & _ & S3).
  specialize (S3 B1 B2). destruct (integral p) eqn:I; [|rewrite S3; exact B3].
  destruct S3 as (z & Z1 & Z2). rewrite Z2. destruct R as (_ & _ & R). destruct (R I) as [z' Hz']. rewrite Hz'.
  apply (drops_Proper _ (inject_Z z')) in Z1; [|rewrite B3; exact Hz'].
  assert (z = z').
  { destruct Z1 as [Z1 Z3]. destruct (Z_le_gt_dec 0 z') as [G|G].
    - destruct Z1 as [Z4 Z5]. { change 0%Q with (inject_Z 0). rewrite <- Zle_Qle. lia. }
      rewrite <- Zle_Qle in Z4. change 1%Q with (inject_Z 1) in Z5. rewrite <- inject_Z_plus, <- Zlt_Qlt in Z5. lia.
    - destruct Z3 as [Z4 Z5]. { change 0%Q with (inject_Z 0). rewrite <- Zle_Qle. lia. }
      rewrite <- Zle_Qle in Z5. change 1%Q with (inject_Z 1) in Z4. unfold Qminus in Z4.
      rewrite <- inject_Z_opp, <- inject_Z_plus, <- Zlt_Qlt in Z4. lia. }
  subst. reflexivity.
Qed.

(** Numbers standing for an individual. *)
Lemma stands_exists p v : wf_param p -> valid_coord p v -> exists q w, in_range p q /\ same w v /\
  (forall q', (q' == q)%Q -> forall v', stands_for p q' v' -> same v' v).
Proof.
  intros W V. unfold in_range. destruct p as [lo hi|lo hi|cs]; simpl in *.
  - destruct V as (q & -> & V1 & V2 & V3). exists q, (VNum q). simpl. repeat split; auto; try reflexivity. intros q' E v' ->. simpl. exact E.
  - destruct V as (q & -> & V2 & V3). exists q, (VNum q). simpl. repeat split; auto; try reflexivity; try discriminate. intros q' E v' ->. simpl. exact E.
  - destruct V as (w & V1 & V2). apply In_nth_error in V1. destruct V1 as [n Hn]. exists (inject_Z (Z.of_nat n)), w.
    assert (n < length cs) by (apply nth_error_Some; congruence). repeat split; auto.
    + change 0%Q with (inject_Z 0). rewrite <- Zle_Qle. lia.
    + apply Qle_trans with (inject_Z (Z.of_nat (length cs) - 1)); [rewrite <- Zle_Qle; lia|].
      unfold Z.sub. rewrite inject_Z_plus, inject_Z_opp. apply Qle_refl.
    + intros _. eexists; reflexivity.
    + intros q' E v' (m & M1 & M2). rewrite E in M1. assert (m = n). { apply Qeq_alt in M1. 
        rewrite <- Qeq_alt in M1. unfold Qeq in M1. simpl in M1. lia. }
      subst. assert (v' = w) by congruence. subst. auto.
Qed.
Lemma stands_all sp0 x : Forall (fun kp => wf_param (snd kp)) sp0 -> valid sp0 x ->
  exists s, observable sp0 s /\ (forall s', Forall2 Qeq s' s -> forall x', represents sp0 s' x' -> Forall2 same x' x).
Proof.
  intros W V. induction V as [|kp v sp0 x Hv V IH].
  - exists []. split; [constructor|]. intros s' E x' (_ & L & _). destruct x'; [constructor|discriminate].
  - inversion W; subst. destruct (IH ltac:(auto)) as (s & S1 & S2). destruct (stands_exists _ _ H1 Hv) as (q & w & Q1 & _ & Q2).
    exists (q :: s). split; [constructor; auto|]. intros s' E x' (L1 & L2 & R). inversion E; subst. destruct x' as [|v' x']; [discriminate|].
    constructor.
    + eapply Q2; [eassumption|]. apply (R 0 kp x0 v'); auto.
    + eapply S2; [eassumption|]. simpl in L1, L2. repeat split; try lia. intros i kp' q' v'' A1 A2 A3. apply (R (S i) kp' q' v''); auto.
Qed.

Theorem box_onto sp0 st0 : wf_space b -> new = Some (sp0, st0) -> sp0 = ABox ->
  forall x, valid b x -> exists a, length a = length b /\ Forall (fun y => (-1 <= y)%Q /\ (y <= 1)%Q) a /\
    forall st, exists r st', step ABox st (ActBox a) = Some (r, st') /\ Forall2 same (r_x r) x.
Proof.
  intros W N -> x V. pose proof (new_aspace _ _ N) as A. destruct (stands_all b x (proj2 W) V) as (s & O & R).
  exists (map2 (fun kp q => unmap (snd kp) q) b s).
  assert (L : length s = length b) by (symmetry; eapply F2_len; eauto).
  assert (L' : length (map2 (fun kp q => unmap (snd kp) q) b s) = length b) by (rewrite map2_len'; auto).
  split; [auto|]. split.
  - clear - O. unfold observable in O. induction O as [|kp q b0 s H O IH]; simpl; constructor; auto. destruct (unmap_box _ _ H) as (H1 & H2 & _). auto.
  - intros st. pose proof (box_map st _ W A L') as M. destruct (W) as [D Wp].
    assert (O' : observable b (map2 (fun d y => fix1 d (action_map1 d y)) (env_dims b) (map2 (fun kp q => unmap (snd kp) q) b s))).
    { rewrite <- (map2_map2 fix1 action_map1). apply fix1_feasible; auto. rewrite map2_len'; rewrite ?env_dims_length; auto. }
    destruct (step_by _ _ _ _ _ D O' M) as (x' & X1 & X2 & X3). eexists _, _. split; [exact X1|]. simpl.
    eapply R; [|exact X3]. clear - O Wp. unfold observable in O. induction O as [|kp q b0 s H O IH]; simpl; constructor.
    + inversion Wp; subst. apply unmap_fix; auto.
    + inversion Wp; subst. apply IH; auto.
Qed.

(** The upper end of an integer variable is reached only by the largest action. *)
Theorem upper_edge sp0 st0 : wf_space b -> new = Some (sp0, st0) -> sp0 = ABox ->
  forall st a r st' i kp y q, length a = length b -> step ABox st (ActBox a) = Some (r, st') ->
    nth_error b i = Some kp -> nth_error a i = Some y -> nth_error (r_state r) i = Some q ->
    integral (snd kp) = true -> (0 <= low (snd kp))%Q -> (low (snd kp) < high (snd kp))%Q -> (-1 <= y)%Q -> (y < 1)%Q -> (q < high (snd kp))%Q.
Proof.
  intros W N E st a r st' i kp y q L S H1 H2 H3 I P1 P2 Y1 Y2.
  destruct (box_ok sp0 st0 W N E st a L) as (r' & st'' & S' & _ & _ & _ & _ & B). rewrite S in S'. inversion S'; subst r' st''.
  destruct (B i kp y q H1 H2 H3) as (_ & _ & B3). rewrite I in B3. destruct (B3 Y1 ltac:(lra)) as (z & [Z1 _] & Z2). rewrite Z2.
  assert (0 < (1 - y) * (high (snd kp) - low (snd kp)))%Q by (apply Qmult_lt_0_compat; lra).
  assert (0 <= (y + 1) * (high (snd kp) - low (snd kp)))%Q by (apply Qmult_le_0_compat; lra).
  unfold affine in Z1. destruct Z1 as [Z1 _]; [nra|]. eapply Qle_lt_trans; [exact Z1|]. nra.
Qed.
End Proofs.
