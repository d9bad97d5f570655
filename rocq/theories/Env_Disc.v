(** Proofs about the optimization environment: discrete action spaces. *)
From Coq Require Import String List Arith ZArith QArith Qround Bool Lia Lqa Permutation Morphisms.
From Verif Require Import Base BaseFacts Space_Model Space_Spec Space_Facts Space_Proofs Opt_Model Opt_Spec Opt_Facts Opt_Facts2
  Data_Proofs Env_Model Env_Spec Env_Proofs.
Import ListNotations.
Open Scope nat_scope.

Lemma int_of_Z q z : (q == inject_Z z)%Q -> int_of q = Some z.
Proof.
  intros E. unfold int_of. assert (F : Qfloor q = z) by (rewrite E; apply Qfloor_Z). rewrite F.
  assert (B : Qeq_bool q (inject_Z z) = true) by (apply Qeq_bool_iff; auto). rewrite B. reflexivity.
Qed.
Lemma values_ok p : wf_param p -> integral p = true ->
  exists lo hi, values (env_dim p) = Some (zrange lo (hi + 1)) /\ (low p == inject_Z lo)%Q /\ (high p == inject_Z hi)%Q /\ (lo <= hi)%Z.
Proof.
  intros W I. destruct (wf_high p W) as [W1 W2]. destruct (W2 I) as [[lo Hlo] [hi Hhi]]. exists lo, hi. rewrite env_dim_eq.
  unfold values. simpl. rewrite (int_of_Z _ _ Hlo), (int_of_Z _ _ Hhi). repeat split; auto.
  rewrite Zle_Qle, <- Hlo, <- Hhi. exact W1.
Qed.
Lemma in_values p m z : wf_param p -> integral p = true -> values (env_dim p) = Some m ->
  (In z m <-> (low p <= inject_Z z)%Q /\ (inject_Z z <= high p)%Q).
Proof.
  intros W I V. destruct (values_ok p W I) as (lo & hi & E & Hl & Hh & _). rewrite E in V. inversion V; subst.
  rewrite in_zrange, Hl, Hh, <- !Zle_Qle. lia.
Qed.
Lemma nth_zrange lo hi i : i < length (zrange lo hi) -> nth_error (zrange lo hi) i = Some (lo + Z.of_nat i)%Z.
Proof.
  intros H. rewrite zrange_length in H. unfold zrange. rewrite nth_error_map.
  rewrite (nth_error_nth' _ 0) by (rewrite seq_length; auto). rewrite seq_nth by auto. reflexivity.
Qed.
Lemma nth_values p m i : wf_param p -> integral p = true -> values (env_dim p) = Some m -> i < length m ->
  exists z, nth_error m i = Some z /\ (inject_Z z == low p + inject_Z (Z.of_nat i))%Q /\ in_range p (inject_Z z).
Proof.
  intros W I V Hi. pose proof (in_values p m) as IV. destruct (values_ok p W I) as (lo & hi & E & Hl & Hh & _). rewrite E in V. inversion V; subst.
  exists (lo + Z.of_nat i)%Z. rewrite nth_zrange by auto. rewrite inject_Z_plus, Hl. split; [auto|]. split; [reflexivity|].
  destruct (IV (lo + Z.of_nat i)%Z W I E) as [IV1 _]. rewrite <- inject_Z_plus. split; [|split].
  - apply IV1. eapply nth_error_In. apply nth_zrange; auto.
  - apply IV1. eapply nth_error_In. apply nth_zrange; auto.
  - intros _. eexists; reflexivity.
Qed.
Lemma values_len p m : wf_param p -> integral p = true -> values (env_dim p) = Some m ->
  (inject_Z (Z.of_nat (length m)) == high p - low p + 1)%Q.
Proof.
  intros W I V. destruct (values_ok p W I) as (lo & hi & E & Hl & Hh & Hle). rewrite E in V. inversion V; subst.
  rewrite zrange_length, Z2Nat.id by lia. rewrite Hl, Hh. unfold Z.sub. rewrite !inject_Z_plus, inject_Z_opp. change (inject_Z 1) with 1%Q. ring.
Qed.
Lemma fix1_Z p z : in_range p (inject_Z z) -> integral p = true -> fix1 (env_dim p) (inject_Z z) = inject_Z z.
Proof. intros (H1 & H2 & _) I. rewrite env_dim_eq. unfold fix1. simpl. rewrite I, trunc_Z. apply clip1_mid; auto. Qed.

Lemma all_int sp0 : forallb d_int (env_dims sp0) = true <-> Forall (fun kp => integral (snd kp) = true) sp0.
Proof.
  unfold env_dims. induction sp0 as [|kp sp0 IH]; simpl; [split; auto|]. rewrite env_dim_eq. simpl. rewrite andb_true_iff, IH.
  split; [intros []; constructor; auto|intros H; inversion H; auto].
Qed.

Lemma F2_map_l {A B C} (f : A -> B) (R : B -> C -> Prop) l : forall l', Forall2 R (map f l) l' <-> Forall2 (fun a c => R (f a) c) l l'.
Proof. induction l as [|a l IH]; intros l'; simpl; split; intros H; inversion H; subst; constructor; auto; apply IH; auto. Qed.

Section Proofs.
Context (fit : list val -> Q) (set_order : list Z -> list Z)
  (act_sample : nat -> action) (obs_sample : nat -> list Q) (randint : nat -> Z -> Z -> Z) (c : econf).
Local Notation b := (ec_space c).
Local Notation new := (env_new set_order act_sample obs_sample c).
Local Notation step := (env_step fit obs_sample randint c).
Local Notation run := (fun sp st ops => ofold (env_op fit act_sample obs_sample randint c sp) st ops).

(** Which methods accept which spaces. *)
Theorem new_ok : wf_space b ->
  ((exists sp st, new = Some (sp, st)) <->
   ec_meth c = MAll \/ ec_meth c = MOne /\ Forall (fun kp => integral (snd kp) = true) b).
Proof.
  intros [D W].
  assert (T : Forall (fun kp => integral (snd kp) = true) b -> exists ms, traverse (fun _ d => values d) 0 (env_dims b) = Some ms).
  { intros I. assert (X : exists ms, Forall2 (fun d m => values d = Some m) (env_dims b) ms).
    { unfold env_dims. clear D. revert W I. generalize b as l. induction l as [|kp l IH]; intros W I; [exists []; constructor|].
      inversion W; inversion I; subst. destruct (values_ok (snd kp)) as (lo & hi & E & _); auto. destruct IH as (ms & M); auto.
      eexists. simpl. constructor; eauto. }
    destruct X as (ms & X). exists ms. apply traverse_F2; auto. }
  unfold env_new, env_aspace, env_reset. split.
  - intros (sp & st & H). destruct (ec_meth c); auto.
    + right. split; auto. apply all_int. destruct (forallb d_int (env_dims b)); auto; discriminate.
    + simpl in H. destruct (forallb d_int (env_dims b)); discriminate.
  - intros [E|[E I]]; rewrite E.
    + destruct (forallb d_int (env_dims b)) eqn:I.
      * apply all_int in I. destruct (T I) as (ms & M). rewrite M. simpl. eauto.
      * simpl. eauto.
    + pose proof (proj2 (all_int b) I) as I'. rewrite I'. destruct (T I) as (ms & M). rewrite M. simpl. eauto.
Qed.

(* ---------- MultiDiscrete ---------- *)
Lemma multi_maps maps : env_aspace set_order c = Some (AMulti maps) ->
  ec_meth c = MAll /\ Forall (fun kp => integral (snd kp) = true) b /\ Forall2 (fun kp m => values (env_dim (snd kp)) = Some m) b maps.
Proof.
  intros A. pose proof (aspace_meth _ _ _ A) as M. simpl in M. split; auto. unfold env_aspace in A. rewrite M in A.
  destruct (forallb d_int (env_dims b)) eqn:I; [|discriminate]. split; [apply all_int; auto|].
  destruct (traverse _ _ _) as [ms|] eqn:T; [|discriminate]. simpl in A. inversion A; subst. apply traverse_F2 in T.
  unfold env_dims in T. apply F2_map_l in T. exact T.
Qed.

Lemma multi_vec sp0 maps : Forall (fun kp => wf_param (snd kp)) sp0 -> Forall (fun kp => integral (snd kp) = true) sp0 ->
  Forall2 (fun kp m => values (env_dim (snd kp)) = Some m) sp0 maps ->
  forall ix, Forall2 (fun m i => i < length m) maps ix ->
  exists v, (forall t, traverse (fun _ p => option_map inject_Z (nth_error (snd p) (fst p))) t (combine ix maps) = Some v) /\
    observable sp0 v /\ map2 fix1 (env_dims sp0) v = v /\
    (forall i kp n q, nth_error sp0 i = Some kp -> nth_error ix i = Some n -> nth_error v i = Some q -> (q == low (snd kp) + inject_Z (Z.of_nat n))%Q).
Proof.
  intros W I F. induction F as [|kp m sp0 maps V F IH]; intros ix X; inversion X; subst.
  - exists []. repeat split; auto; try constructor. intros [|i]; discriminate.
  - inversion W; inversion I; subst. destruct (IH ltac:(auto) ltac:(auto) l') as (v & V1 & V2 & V3 & V4); auto.
    destruct (nth_values (snd kp) m y ltac:(auto) ltac:(auto) V H1) as (z & Z1 & Z2 & Z3). exists (inject_Z z :: v). split; [|split; [|split]].
    + intros t. simpl. rewrite Z1. simpl. rewrite V1. reflexivity.
    + constructor; auto.
    + simpl. rewrite fix1_Z by auto. f_equal. exact V3.
    + intros [|i] kp' n q E1 E2 E3; simpl in *.
      * inversion E1; inversion E2; inversion E3; subst. exact Z2.
      * eapply V4; eauto.
Qed.

Lemma multi_step maps st ix : wf_space b -> env_aspace set_order c = Some (AMulti maps) -> Forall2 (fun m i => i < length m) maps ix ->
  exists v x, step (AMulti maps) st (ActMulti ix) =
      Some (EResult v (as_max (ec_mode c) (fit x)) (n_done (ticked c st)) x, ticked c st) /\
    valid b x /\ observable b v /\ represents b v x /\
    (forall i kp n q, nth_error b i = Some kp -> nth_error ix i = Some n -> nth_error v i = Some q -> (q == low (snd kp) + inject_Z (Z.of_nat n))%Q).
Proof.
  intros W A X. destruct (multi_maps _ A) as (M & I & F). destruct W as [D W].
  destruct (multi_vec _ _ W I F ix X) as (v & V1 & V2 & V3 & V4).
  assert (MP : env_map obs_sample randint c (AMulti maps) (ActMulti ix) st = Some (v, st)).
  { unfold env_map, whole_action, multi_actions. rewrite M, V1. cbn [bind]. assert (L : length v = length b) by (symmetry; eapply F2_len; eauto).
    rewrite env_dims_length, L, Nat.eqb_refl. cbn [bind]. rewrite clip_fix1, V3; auto using wf_dims_env. rewrite env_dims_length; auto. }
  destruct (step_by fit _ _ _ _ _ _ _ _ D V2 MP) as (x & X1 & X2 & X3). exists v, x. auto.
Qed.

Theorem multi_ok maps st0 : wf_space b -> new = Some (AMulti maps, st0) ->
  Forall2 (fun kp m => (inject_Z (Z.of_nat (length m)) == high (snd kp) - low (snd kp) + 1)%Q) b maps /\
  forall st ix, Forall2 (fun m i => i < length m) maps ix ->
  exists r st', step (AMulti maps) st (ActMulti ix) = Some (r, st') /\ valid b (r_x r) /\ observable b (r_state r) /\ represents b (r_state r) (r_x r) /\
    r_reward r = as_max (ec_mode c) (fit (r_x r)) /\
    (forall i kp n q, nth_error b i = Some kp -> nth_error ix i = Some n -> nth_error (r_state r) i = Some q -> (q == low (snd kp) + inject_Z (Z.of_nat n))%Q).
Proof.
  intros W N. pose proof (new_aspace _ _ _ _ _ _ N) as A. split.
  - destruct (multi_maps _ A) as (_ & I & F). destruct W as [_ W]. clear - W I F.
    induction F as [|kp m sp0 maps V F IH]; constructor; inversion W; inversion I; subst; auto. apply values_len; auto.
  - intros st ix X. destruct (multi_step maps st ix W A X) as (v & x & S1 & S2 & S3 & S4 & S5).
    eexists _, _. split; [exact S1|]. simpl. auto.
Qed.

Lemma multi_pre sp0 maps s : Forall (fun kp => wf_param (snd kp)) sp0 -> Forall (fun kp => integral (snd kp) = true) sp0 ->
  Forall2 (fun kp m => values (env_dim (snd kp)) = Some m) sp0 maps -> observable sp0 s ->
  exists ix, Forall2 (fun m i => i < length m) maps ix /\
    Forall2 (fun kp_q n => (snd kp_q == low (snd (fst kp_q)) + inject_Z (Z.of_nat n))%Q) (combine sp0 s) ix.
Proof.
  intros W I F. revert s. induction F as [|kp m sp0 maps V F IH]; intros s O.
  - exists []. split; constructor.
  - inversion O as [|? q ? s' Oq O' Ea Eb]; subst. inversion W; inversion I; subst. destruct (IH ltac:(auto) ltac:(auto) s' O') as (ix & X1 & X2).
    destruct (values_ok (snd kp) H1 H5) as (lo & hi & E & Hl & Hh & Hle). rewrite E in V. inversion V; subst.
    destruct Oq as (Q1 & Q2 & Q3). destruct (Q3 H5) as [z Hz]. rewrite Hz in Q1, Q2. rewrite Hl in Q1. rewrite Hh in Q2. rewrite <- Zle_Qle in Q1, Q2.
    exists (Z.to_nat (z - lo) :: ix). split; constructor; auto.
    + rewrite zrange_length. lia.
    + simpl. rewrite Z2Nat.id by lia. rewrite Hz, Hl. unfold Z.sub. rewrite inject_Z_plus, inject_Z_opp. ring.
Qed.

Theorem multi_onto maps st0 : wf_space b -> new = Some (AMulti maps, st0) ->
  forall x, valid b x -> exists ix, Forall2 (fun m i => i < length m) maps ix /\
    forall st, exists r st', step (AMulti maps) st (ActMulti ix) = Some (r, st') /\ Forall2 same (r_x r) x.
Proof.
  intros W N x V. pose proof (new_aspace _ _ _ _ _ _ N) as A. destruct (multi_maps _ A) as (_ & I & F).
  destruct (stands_all b x (proj2 W) V) as (s & O & R). destruct (multi_pre _ _ _ (proj2 W) I F O) as (ix & X1 & X2).
  exists ix. split; auto. intros st. destruct (multi_step maps st ix W A X1) as (v & x' & S1 & S2 & S3 & S4 & S5).
  eexists _, _. split; [exact S1|]. simpl. eapply R; [|exact S4].
  clear - O X2 S3 S5. revert ix v X2 S3 S5. induction O as [|kp q sp0 s Oq O IH]; intros ix v X2 S3 S5; inversion S3; subst; [constructor|].
  simpl in X2. inversion X2; subst. simpl in *. constructor.
  - match goal with H : (q == _ + inject_Z (Z.of_nat ?n))%Q |- (?q' == _)%Q => rewrite H; apply (S5 0 kp n q'); auto end.
  - eapply IH; eauto. intros i kp' n q' E1 E2 E3. apply (S5 (S i) kp' n q'); auto.
Qed.

(* ---------- one coordinate at a time ---------- *)
Lemma disc_vals vals : set_listing set_order -> wf_space b -> env_aspace set_order c = Some (ADiscrete vals) ->
  ec_meth c = MOne /\ Forall (fun kp => integral (snd kp) = true) b /\ NoDup vals /\
  (forall z, In z vals <-> exists kp, In kp b /\ (low (snd kp) <= inject_Z z)%Q /\ (inject_Z z <= high (snd kp))%Q).
Proof.
  intros SL [D W] A. pose proof (aspace_meth _ _ _ A) as M. simpl in M. split; auto. unfold env_aspace in A. rewrite M in A.
  destruct (forallb d_int (env_dims b)) eqn:I; [|discriminate]. apply all_int in I. split; auto.
  destruct (traverse _ _ _) as [ms|] eqn:T; [|discriminate]. simpl in A. inversion A; subst. apply traverse_F2 in T.
  unfold env_dims in T. apply F2_map_l in T. destruct (SL (concat ms)) as [S1 S2]. split; auto. intros z. rewrite S2. clear - W I T.
  induction T as [|kp m sp0 ms V T IH]; simpl.
  - split; [tauto|]. intros (kp & [] & _).
  - inversion W; inversion I; subst. rewrite in_app_iff, IH by auto. rewrite (in_values (snd kp) m z) by auto. split.
    + intros [H|(kp' & H & H')]; [exists kp; auto|exists kp'; auto].
    + intros (kp' & [->|H] & H'); [left; auto|right; exists kp'; auto].
Qed.

Definition seq_inv (st : estate) : Prop := observable b (n_full st) /\ n_index st <= length b.

Lemma set_nth_obs sp0 k kp q : forall s, observable sp0 s -> nth_error sp0 k = Some kp -> in_range (snd kp) q -> observable sp0 (set_nth s k q).
Proof.
  revert k. induction sp0 as [|kp0 sp0 IH]; intros [|k] s O E R; simpl in E; try discriminate; inversion O; subst; simpl; constructor; auto.
  - inversion E; subst; auto.
  - apply IH; auto.
Qed.
Lemma nth_set_nth_same {A} (x : A) : forall l k, k < length l -> nth_error (set_nth l k x) k = Some x.
Proof. induction l as [|a l IH]; intros [|k] H; simpl in *; try lia; auto. apply IH. lia. Qed.
Lemma nth_set_nth_other {A} (x : A) : forall l k j, j <> k -> nth_error (set_nth l k x) j = nth_error l j.
Proof. induction l as [|a l IH]; intros [|k] [|j] H; simpl in *; auto; try lia. Qed.

Lemma one_step vals st i z : set_listing set_order -> wf_space b -> env_aspace set_order c = Some (ADiscrete vals) ->
  obs_ok b obs_sample -> randint_ok randint -> seq_inv st -> nth_error vals i = Some z ->
  exists r st', step (ADiscrete vals) st (ActOne i) = Some (r, st') /\ seq_inv st' /\ n_full st' = r_state r /\
    n_index st' = (if n_index st =? length b then 0 else S (n_index st)) /\
    valid b (r_x r) /\ observable b (r_state r) /\ represents b (r_state r) (r_x r) /\ r_reward r = as_max (ec_mode c) (fit (r_x r)) /\
    (n_index st = length b -> exists t, r_state r = obs_sample t) /\
    (forall kp, nth_error b (n_index st) = Some kp ->
       (forall j, j <> n_index st -> nth_error (r_state r) j = nth_error (n_full st) j) /\
       exists q, nth_error (r_state r) (n_index st) = Some q /\ (in_range (snd kp) (inject_Z z) -> (q == inject_Z z)%Q)).
Proof.
  intros SL W A OK RK [O X] Z. destruct (disc_vals vals SL W A) as (M & I & ND & VI). destruct W as [D W].
  assert (LO : length (n_full st) = length b) by (symmetry; eapply F2_len; eauto).
  destruct (Nat.eqb_spec (n_index st) (length b)) as [E|E].
  - set (st1 := EState (obs_sample (n_t st)) 0 (n_done st) (n_counter st) (S (n_t st))).
    assert (MP : env_map obs_sample randint c (ADiscrete vals) (ActOne i) st = Some (n_full st1, st1)).
    { unfold env_map, one_action. rewrite M, env_dims_length, E, Nat.ltb_irrefl. reflexivity. }
    destruct (step_by fit _ _ _ _ _ _ _ _ D (OK (n_t st)) MP) as (x & X1 & X2 & X3).
    eexists _, _. split; [exact X1|]. cbn [r_state r_x r_reward].
    assert (NF : n_full (ticked c st1) = n_full st1) by (unfold ticked; destruct (_ =? _); auto).
    assert (NI : n_index (ticked c st1) = 0) by (unfold ticked; destruct (_ =? _); auto).
    unfold seq_inv. rewrite NF, NI. split; [split; [apply OK|lia]|]. do 3 (split; [auto|]). split; [apply OK|].
    split; [auto|]. split; [auto|]. split; [intros; exists (n_t st); reflexivity|].
    intros kp EK. assert (nth_error b (n_index st) = None) by (apply nth_error_None; lia). congruence.
  - assert (LT : n_index st < length b) by lia.
    destruct (nth_error b (n_index st)) as [kp|] eqn:EK; [|apply nth_error_None in EK; lia].
    assert (Wk : wf_param (snd kp)) by (rewrite Forall_forall in W; apply W; eapply nth_error_In; eauto).
    assert (Ik : integral (snd kp) = true) by (rewrite Forall_forall in I; apply I; eapply nth_error_In; eauto).
    destruct (wf_high _ Wk) as [W1 W2]. destruct (W2 Ik) as [[lo Hlo] [hi Hhi]].
    set (v := if (Qle_bool (low (snd kp)) (inject_Z z) && Qle_bool (inject_Z z) (high (snd kp)))%bool then z
             else randint (n_t st) (Qfloor (low (snd kp))) (Qfloor (high (snd kp)))).
    assert (R : in_range (snd kp) (inject_Z v) /\ (in_range (snd kp) (inject_Z z) -> v = z)).
    { unfold v. destruct (Qle_bool _ _ && Qle_bool _ _)%bool eqn:B.
      - apply andb_true_iff in B. destruct B. qprop. repeat split; auto. intros _. eexists; reflexivity.
      - split.
        + assert (F1 : Qfloor (low (snd kp)) = lo) by (rewrite Hlo; apply Qfloor_Z).
          assert (F2 : Qfloor (high (snd kp)) = hi) by (rewrite Hhi; apply Qfloor_Z). rewrite F1, F2.
          assert (lo <= hi)%Z by (rewrite Zle_Qle, <- Hlo, <- Hhi; auto). pose proof (RK (n_t st) lo hi H).
          repeat split; [rewrite Hlo, <- Zle_Qle; lia|rewrite Hhi, <- Zle_Qle; lia|]. intros _. eexists; reflexivity.
        + intros (R1 & R2 & _). apply Qle_bool_iff in R1. apply Qle_bool_iff in R2. rewrite R1, R2 in B. discriminate. }
    destruct R as [R1 R2].
    set (st1 := EState (set_nth (n_full st) (n_index st) (inject_Z v)) (S (n_index st)) (n_done st) (n_counter st) (S (n_t st))).
    assert (MP : env_map obs_sample randint c (ADiscrete vals) (ActOne i) st = Some (n_full st1, st1)).
    { unfold env_map, one_action. rewrite M, env_dims_length, Z. cbn [bind]. destruct (Nat.ltb_spec (n_index st) (length b)); [|lia].
      assert (ED : nth_error (env_dims b) (n_index st) = Some (env_dim (snd kp))) by (unfold env_dims; rewrite nth_error_map, EK; reflexivity).
      rewrite ED. cbn [bind]. rewrite env_dim_eq. reflexivity. }
    assert (O1 : observable b (n_full st1)) by (unfold st1; simpl; eapply set_nth_obs; eauto).
    destruct (step_by fit _ _ _ _ _ _ _ _ D O1 MP) as (x & X1 & X2 & X3).
    eexists _, _. split; [exact X1|]. cbn [r_state r_x r_reward].
    assert (NF : n_full (ticked c st1) = n_full st1) by (unfold ticked; destruct (_ =? _); auto).
    assert (NI : n_index (ticked c st1) = S (n_index st)) by (unfold ticked; destruct (_ =? _); auto).
    unfold seq_inv. rewrite NF, NI. split; [split; [auto|lia]|]. do 6 (split; [auto|]). split; [intros; lia|].
    intros kp' E'. inversion E'; subst kp'. unfold st1; simpl. split.
    + intros j J. apply nth_set_nth_other; auto.
    + exists (inject_Z v). split; [apply nth_set_nth_same; lia|]. intros Q. rewrite R2 by auto. reflexivity.
Qed.

Lemma ofold_snoc {A B} (f : A -> B -> option A) : forall l a x, ofold f a (l ++ [x]) = match ofold f a l with Some a' => f a' x | None => None end.
Proof.
  induction l as [|y l IH]; intros a x; simpl; [destruct (f a x); auto|]. destruct (f a y); auto.
Qed.
Lemma ofold_app2 {A B} (f : A -> B -> option A) : forall l a l', ofold f a (l ++ l') = match ofold f a l with Some a' => ofold f a' l' | None => None end.
Proof. induction l as [|y l IH]; intros a x; simpl; auto. destruct (f a y); auto. Qed.

Lemma steps_app l l' : steps (l ++ l') = steps l + steps l'.
Proof. unfold steps. rewrite filter_app, app_length. reflexivity. Qed.

Lemma new_MOne vals st0 : obs_ok b obs_sample -> new = Some (ADiscrete vals, st0) -> seq_inv st0 /\ n_index st0 = 0.
Proof.
  intros OK N. pose proof (aspace_meth _ _ _ (new_aspace _ _ _ _ _ _ N)) as M. simpl in M. unfold env_new in N.
  destruct (env_aspace _ _); [|discriminate]. cbn [bind] in N. unfold env_reset in N. rewrite M in N. cbn in N. inversion N; subst.
  repeat split; simpl; [apply OK|lia].
Qed.

Lemma seq_run vals st0 : set_listing set_order -> wf_space b -> obs_ok b obs_sample -> randint_ok randint ->
  new = Some (ADiscrete vals, st0) ->
  forall ops, Forall (fun o => match o with OStep a => legal (ADiscrete vals) a | OReset => True end) ops ->
  exists st, run (ADiscrete vals) st0 ops = Some st /\ seq_inv st /\ n_index st = steps ops mod S (length b).
Proof.
  intros SL W OK RK N ops. destruct (new_MOne vals st0 OK N) as [I0 X0]. pose proof (new_aspace _ _ _ _ _ _ N) as A.
  pose proof (aspace_meth _ _ _ A) as M. simpl in M.
  induction ops as [|o ops IH] using rev_ind; intros F.
  - exists st0. split; [reflexivity|]. split; [auto|]. rewrite X0. symmetry. apply Nat.mod_0_l. lia.
  - apply Forall_app in F. destruct F as [F1 F2]. destruct (IH F1) as (st & S1 & S2 & S3). inversion F2 as [|? ? Fo _]; subst.
    rewrite steps_app. destruct o as [a|].
    + destruct a as [| |i]; try (exfalso; exact Fo). simpl in Fo. destruct (nth_error vals i) as [z|] eqn:Z; [|apply nth_error_None in Z; lia].
      destruct (one_step vals st i z SL W A OK RK S2 Z) as (r & st' & T1 & T2 & T3 & T4 & _). exists st'.
      split; [rewrite ofold_snoc, S1; simpl; rewrite T1; reflexivity|]. split; auto. rewrite T4, S3.
      pose proof (Nat.div_mod (steps ops) (S (length b)) ltac:(lia)). pose proof (Nat.mod_upper_bound (steps ops) (S (length b)) ltac:(lia)).
      change (steps [OStep (ActOne i)]) with 1. destruct (Nat.eqb_spec (steps ops mod S (length b)) (length b)).
      * apply Nat.mod_unique with (q := S (steps ops / S (length b))); nia.
      * apply Nat.mod_unique with (q := steps ops / S (length b)); nia.
    + eexists. split; [rewrite ofold_snoc, S1; simpl; unfold env_reset; rewrite M; reflexivity|]. cbn [n_index]. split.
      * split; simpl; [apply OK|apply S2].
      * rewrite S3. change (steps [OReset]) with 0. rewrite Nat.add_0_r. reflexivity.
Qed.

Theorem seq_ok vals st0 : set_listing set_order -> wf_space b -> obs_ok b obs_sample -> randint_ok randint ->
  new = Some (ADiscrete vals, st0) ->
  NoDup vals /\ (forall z, In z vals <-> exists kp, In kp b /\ (low (snd kp) <= inject_Z z)%Q /\ (inject_Z z <= high (snd kp))%Q) /\
  forall ops, Forall (fun o => match o with OStep a => legal (ADiscrete vals) a | OReset => True end) ops ->
  exists st, run (ADiscrete vals) st0 ops = Some st /\
  forall i z, nth_error vals i = Some z ->
  exists r st', step (ADiscrete vals) st (ActOne i) = Some (r, st') /\
    valid b (r_x r) /\ observable b (r_state r) /\ represents b (r_state r) (r_x r) /\ r_reward r = as_max (ec_mode c) (fit (r_x r)) /\
    (let k := steps ops mod S (length b) in
     (k = length b -> exists t, r_state r = obs_sample t) /\
     (forall kp, nth_error b k = Some kp ->
       (forall j, j <> k -> nth_error (r_state r) j = nth_error (n_full st) j) /\
       exists q, nth_error (r_state r) k = Some q /\ (in_range (snd kp) (inject_Z z) -> (q == inject_Z z)%Q))).
Proof.
  intros SL W OK RK N. pose proof (new_aspace _ _ _ _ _ _ N) as A. destruct (disc_vals vals SL W A) as (M & I & ND & VI).
  split; auto. split; auto. intros ops F. destruct (seq_run vals st0 SL W OK RK N ops F) as (st & S1 & S2 & S3). exists st. split; auto.
  intros i z Z. destruct (one_step vals st i z SL W A OK RK S2 Z) as (r & st' & T1 & T2 & T3 & T4 & T5 & T6 & T7 & T8 & T9 & T10).
  exists r, st'. rewrite <- S3. auto 10.
Qed.

(** From the start of an individual, [n] actions decode to the individual they name. *)
Theorem seq_individual vals st0 : set_listing set_order -> wf_space b -> obs_ok b obs_sample -> randint_ok randint ->
  new = Some (ADiscrete vals, st0) ->
  forall ops ixs zs, Forall (fun o => match o with OStep a => legal (ADiscrete vals) a | OReset => True end) ops ->
  steps ops mod S (length b) = 0 ->
  Forall2 (fun i z => nth_error vals i = Some z) ixs zs -> Forall2 (fun kp z => in_range (snd kp) (inject_Z z)) b zs ->
  exists st, run (ADiscrete vals) st0 (ops ++ map (fun i => OStep (ActOne i)) ixs) = Some st /\ Forall2 Qeq (n_full st) (map inject_Z zs).
Proof.
  intros SL W OK RK N ops ixs zs F S0 FZ FR. pose proof (new_aspace _ _ _ _ _ _ N) as A.
  destruct (seq_run vals st0 SL W OK RK N ops F) as (st & S1 & S2 & S3). rewrite S0 in S3.
  assert (LZ : length ixs = length zs) by (eapply F2_len; eauto). assert (LB : length b = length zs) by (eapply F2_len; eauto).
  assert (P : forall k, k <= length zs -> exists st', run (ADiscrete vals) st (map (fun i => OStep (ActOne i)) (firstn k ixs)) = Some st' /\
     seq_inv st' /\ n_index st' = k /\ forall j z, j < k -> nth_error zs j = Some z -> exists q, nth_error (n_full st') j = Some q /\ (q == inject_Z z)%Q).
  { induction k as [|k IH]; intros K.
    - exists st. simpl. repeat split; auto; try apply S2. intros; lia.
    - destruct IH as (st' & R1 & R2 & R3 & R4); [lia|].
      destruct (nth_error ixs k) as [i|] eqn:Ei; [|apply nth_error_None in Ei; lia].
      destruct (F2_nth _ _ _ _ _ FZ Ei) as (z & Ez & Hz).
      destruct (nth_error b k) as [kp|] eqn:Eb; [|apply nth_error_None in Eb; lia].
      destruct (F2_nth _ _ _ _ _ FR Eb) as (z' & Ez' & Hr). assert (z' = z) by congruence. subst z'.
      destruct (one_step vals st' i z SL W A OK RK R2 Hz) as (r & st'' & T1 & T2 & T3 & T4 & _ & _ & _ & _ & _ & T10).
      rewrite R3 in T4, T10. destruct (T10 kp Eb) as [T11 (q & Q1 & Q2)].
      exists st''. assert (FS : firstn (S k) ixs = firstn k ixs ++ [i]).
      { clear - Ei. revert k Ei. induction ixs as [|a l IH]; intros [|k] E; simpl in *; try discriminate; [inversion E; auto|]. rewrite (IH k E). reflexivity. }
      rewrite FS, map_app. cbn [map]. rewrite ofold_snoc, R1. simpl. rewrite T1. simpl. split; auto. split; auto.
      destruct (Nat.eqb_spec k (length b)); [lia|]. split; auto. intros j z0 J Ej. rewrite T3. destruct (Nat.eq_dec j k) as [->|NE].
      + assert (z0 = z) by congruence. subst. exists q. auto.
      + rewrite T11 by auto. apply R4; auto. lia. }
  destruct (P (length zs) (le_n _)) as (st' & R1 & R2 & R3 & R4). exists st'. rewrite ofold_app2, S1.
  rewrite <- LZ, firstn_all in R1. split; auto.
  assert (LF : length (n_full st') = length zs) by (rewrite <- LB; symmetry; eapply F2_len; apply R2).
  clear - R4 LF. revert zs R4 LF. generalize (n_full st') as l. induction l as [|q l IH]; intros [|z zs] R4 LF; simpl in *; try discriminate; constructor.
  - destruct (R4 0 z) as (q' & E & H); auto; [lia|]. simpl in E. inversion E; subst. auto.
  - apply IH; [|lia]. intros j z0 J E. destruct (R4 (S j) z0) as (q' & E' & H); auto; [lia|]. exists q'; auto.
Qed.

(** Every (n+1)-th action is thrown away. *)
Theorem seq_ignored vals st0 : set_listing set_order -> wf_space b -> obs_ok b obs_sample -> randint_ok randint ->
  new = Some (ADiscrete vals, st0) ->
  forall ops st, Forall (fun o => match o with OStep a => legal (ADiscrete vals) a | OReset => True end) ops ->
  run (ADiscrete vals) st0 ops = Some st -> steps ops mod S (length b) = length b ->
  forall i j, step (ADiscrete vals) st (ActOne i) = step (ADiscrete vals) st (ActOne j).
Proof.
  intros SL W OK RK N ops st F R E i j. destruct (seq_run vals st0 SL W OK RK N ops F) as (st' & S1 & S2 & S3).
  assert (st' = st) by congruence. subst. pose proof (aspace_meth _ _ _ (new_aspace _ _ _ _ _ _ N)) as M. simpl in M.
  unfold env_step, env_map, one_action. rewrite M, env_dims_length, S3, E, Nat.ltb_irrefl. reflexivity.
Qed.
End Proofs.
