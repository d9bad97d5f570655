(** Consequences: what the updates of a learn see, learning rates, counts; witnesses (C76, C77). *)
From Coq Require Import List Arith ZArith QArith Bool Lia Lqa Permutation.
From Verif Require Import Base BaseFacts Opt_Model Opt_Facts Sched_Model CB_Model CB_Spec CB_Proofs CB_Every CB_Eval CB_Total LN_Model LN_Spec LN_Proofs LN_Algs LN_Acer.
Import ListNotations.
Open Scope nat_scope.

Lemma fm_nil {X Y} (f : X -> list Y) l : (forall x, In x l -> f x = []) -> flat_map f l = [].
Proof. intros H. induction l as [|a r IH]; [reflexivity|]. simpl. rewrite (H a (or_introl eq_refl)), IH; auto. intros x Hx. apply H; right; exact Hx. Qed.
Lemma fm_fm {X Y Z} (f : X -> list Y) (g : Y -> list Z) l : flat_map g (flat_map f l) = flat_map (fun x => flat_map g (f x)) l.
Proof. induction l as [|a r IH]; [reflexivity|]. simpl. rewrite flat_map_app, IH. reflexivity. Qed.
Lemma fm_one {X Y} (f : X -> Y) l : flat_map (fun x => [f x]) l = map f l.
Proof. induction l as [|a r IH]; [reflexivity|]. simpl. rewrite IH. reflexivity. Qed.
Lemma filter_fm {X Y} (p : Y -> bool) (f : X -> list Y) l : filter p (flat_map f l) = flat_map (fun x => filter p (f x)) l.
Proof. induction l as [|a r IH]; [reflexivity|]. simpl. rewrite filter_app, IH. reflexivity. Qed.

Lemma parts_concat {X} n u (l : list X) : concat (map (fun j => part n j l) (seq 0 u)) = firstn (u * n) l.
Proof.
  induction u as [|u IH]; [reflexivity|]. rewrite seq_S, map_app, concat_app, IH. simpl map. simpl concat. rewrite app_nil_r. unfold part.
  replace (S u * n) with (u * n + n) by (simpl; lia).
  rewrite <- (firstn_skipn (u * n) (firstn (u * n + n) l)). rewrite firstn_firstn. replace (min (u * n) (u * n + n)) with (u * n) by lia. f_equal.
  rewrite skipn_firstn_comm. f_equal. lia.
Qed.

Section L.
  Context {St O A : Type} (enext : St -> A -> St) (rew : St -> A -> list Q) (obs_of : St -> O) (dones_of : St -> list bool)
          (act : nat -> O -> list bool -> A) (clip : A -> A).
  Notation path := (path enext rew obs_of dones_of act clip).
  Notation transcript := (transcript enext clip).
  Notation rollout_log := (rollout_log enext clip).
  Notation played := (played enext clip).
  Notation items := (list (item St O A)).
  Notation rows := (list (row O A)).

  Lemma played_quiet (p : item St O A -> bool) : (forall s a, p (IEnv s a) = false) -> (forall e, p (IEv e) = false) -> forall (r : rows) s o, filter p (played s r o) = [].
  Proof.
    intros H1 H2. induction r as [|w r IH]; intros s [|x o]; try reflexivity. cbn [LN_Spec.played]. simpl. rewrite H1. rewrite filter_app, IH, app_nil_r.
    induction (fst x); simpl; auto. rewrite H2. auto.
  Qed.
  Lemma ev_quiet (p : item St O A -> bool) : (forall e, p (IEv e) = false) -> forall l, filter p (map IEv l) = [].
  Proof. intros H. induction l as [|a l IH]; simpl; auto. rewrite H. exact IH. Qed.
  Lemma log_quiet (p : item St O A -> bool) : (forall s a, p (IEnv s a) = false) -> (forall e, p (IEv e) = false) -> forall n s c r o j, filter p (rollout_log n s c r o j) = [].
  Proof. intros H1 H2 n s c r o j. unfold LN_Spec.rollout_log. rewrite !filter_app, !ev_quiet, played_quiet by auto. reflexivity. Qed.
  Lemma transcript_filter (p : item St O A -> bool) n u st s c (r : rows) o upd : (forall s a, p (IEnv s a) = false) -> (forall e, p (IEv e) = false) ->
    filter p (transcript n u st s c r o upd) = flat_map (fun j => filter p (upd j)) (seq 0 u).
  Proof.
    intros H1 H2. unfold LN_Spec.transcript. rewrite !filter_app, !ev_quiet by auto. rewrite filter_fm.
    assert (filter p (if st then rollout_log n s c r o u else []) = []) as -> by (destruct st; [apply log_quiet; auto|reflexivity]). rewrite !app_nil_r. simpl.
    apply fm_ext_in. intros j _. rewrite filter_app, log_quiet by auto. reflexivity.
  Qed.
  Definition is_train (i : item St O A) : bool := match i with ITrain _ => true | _ => false end.
  Lemma trainings_filter (l : items) : trainings l = trainings (filter is_train l).
  Proof. unfold trainings. induction l as [|[]]; simpl; auto. rewrite IHl. reflexivity. Qed.
  Lemma transcript_trainings n u st s c (r : rows) o upd : trainings (transcript n u st s c r o upd) = flat_map (fun j => trainings (upd j)) (seq 0 u).
  Proof.
    rewrite trainings_filter, transcript_filter by reflexivity. unfold trainings at 1. rewrite fm_fm. apply fm_ext_in. intros j _. symmetry. apply trainings_filter.
  Qed.
  Lemma transcript_replays n u st s c (r : rows) o upd : replays (transcript n u st s c r o upd) = flat_map (fun j => replays (upd j)) (seq 0 u).
  Proof. unfold replays. apply transcript_filter; reflexivity. Qed.
End L.

Section R.
  Context {St O A : Type} (enext : St -> A -> St) (rew : St -> A -> list Q) (obs_of : St -> O) (dones_of : St -> list bool)
          (act : nat -> O -> list bool -> A) (clip : A -> A)
          (ans : nat -> nat -> answer) (ev : nat -> nat -> Q).
  Notation synced := (synced obs_of dones_of).
  Notation path := (path enext rew obs_of dones_of act clip).
  Notation after := (after enext clip).
  Notation transcript := (transcript enext clip).
  Notation seen := (seen enext obs_of dones_of clip).
  Notation calls := (calls ans ev).
  Notation run := (runner St O).
  Notation items := (list (item St O A)).
  Notation rows := (list (row O A)).
  Notation a2c_learn := (a2c_learn enext rew obs_of dones_of act clip ans ev).
  Notation ppo_learn := (ppo_learn enext rew obs_of dones_of act clip ans ev).
  Notation acer_learn := (acer_learn enext rew obs_of dones_of act clip ans ev).

  Lemma path_firstn m : forall (r : rows) q s, path q s r -> path q s (firstn m r).
  Proof. induction m as [|m IH]; intros [|w r] q s H; simpl in *; auto. destruct H as (? & ? & ? & ? & H). repeat split; auto. Qed.

  Lemma train_one pois draws start e n sz stored ratio nt lr j (t : training O A) : trainings (ITrain t :: replayed pois draws start e n sz stored ratio nt lr j : items) = [t].
  Proof.
    unfold trainings. cbn [flat_map app]. f_equal. apply fm_nil. intros i Hi. unfold replayed in Hi. destruct (ratio && _); [|destruct Hi]. apply in_map_iff in Hi. destruct Hi as (? & <- & _). reflexivity.
  Qed.
  Lemma train_list pois draws start e n sz stored ratio nt lr (t : nat -> training O A) l :
    flat_map (fun j => trainings (ITrain (t j) :: replayed pois draws start e n sz stored ratio (nt j) (lr j) j : items)) l = map t l.
  Proof. rewrite <- fm_one. apply fm_ext_in. intros j _. apply train_one. Qed.
  Lemma replay_one pois draws start e n sz stored ratio nt lr j (t : training O A) :
    replays (ITrain t :: replayed pois draws start e n sz stored ratio nt lr j : items) = replayed pois draws start e n sz stored ratio nt lr j.
  Proof.
    unfold replays. cbn [filter]. unfold replayed. destruct (ratio && _); [|reflexivity]. induction (seq 0 (pois j)) as [|i l IH]; [reflexivity|]. cbn [map filter]. f_equal. exact IH.
  Qed.

  (** Short learns. *)
  Lemma a2c_short lr0 crv e n total reset (rs : run) c nt : e * n <> 0 -> total < e * n ->
    a2c_learn lr0 crv e n total reset rs c nt = Some (rs, c, if reset then 0 else nt, map IEv (notify TrainingStart c) ++ map IEv (notify TrainingEnd c)).
  Proof. intros H1 H2. unfold LN_Model.a2c_learn. assert (e * n =? 0 = false) as -> by (apply Nat.eqb_neq; auto). rewrite Nat.div_small by exact H2. reflexivity. Qed.
  Lemma ppo_short sh rc mb ep lrf e n total reset (rs : run) c nt k : e * n <> 0 -> total < e * n ->
    ppo_learn sh rc mb ep lrf e n total reset rs c nt k = Some (rs, c, if reset then 0 else nt, map IEv (notify TrainingStart c) ++ map IEv (notify TrainingEnd c)).
  Proof. intros H1 H2. unfold LN_Model.ppo_learn. assert (e * n =? 0 = false) as -> by (apply Nat.eqb_neq; auto). rewrite Nat.div_small by exact H2. reflexivity. Qed.

  Lemma ends_len n k u stopped outs : ends n k u stopped outs -> u <= k /\ u * n <= length outs.
  Proof. unfold ends. destruct stopped; intros H; [|destruct H as (-> & -> & _)]; lia. Qed.

  (** Every step is used once. *)
  Lemma a2c_used lr0 crv e n total reset (rs : run) c nt rs' c' nt' its : synced rs ->
    a2c_learn lr0 crv e n total reset rs c nt = Some (rs', c', nt', its) ->
    path (r_q rs) (r_env rs) (concat (map t_rows (trainings its))) /\ Forall (fun t => length (t_rows t) = n) (trainings its) /\ length (trainings its) <= total / (e * n).
  Proof.
    intros Sy H. apply a2c_spec in H; auto. cbv zeta in H. destruct H as (u & st & rw & outs & P & C & En & -> & _ & _ & _).
    pose proof (ends_len _ _ _ _ _ En) as (L1 & L2). pose proof (calls_length _ _ _ _ _ _ C) as Lo. rewrite counts_length in Lo.
    rewrite transcript_trainings. unfold trainings; cbn [flat_map app]. rewrite fm_one, map_map. cbn [t_rows]. rewrite parts_concat. split; [apply path_firstn; exact P|]. split.
    - apply Forall_forall. intros t Ht. apply in_map_iff in Ht. destruct Ht as (j & <- & Hj). apply in_seq in Hj. cbn [t_rows]. unfold part. rewrite firstn_length, skipn_length. nia.
    - rewrite map_length, seq_length. exact L1.
  Qed.
  Lemma ppo_used sh rc mb ep lrf e n total reset (rs : run) c nt k rs' c' nt' its : (forall k l, Permutation (sh k l) l) -> synced rs ->
    ppo_learn sh rc mb ep lrf e n total reset rs c nt k = Some (rs', c', nt', its) ->
    path (r_q rs) (r_env rs) (concat (map t_rows (trainings its))) /\
    Forall (fun t => length (t_rows t) = n /\ length (t_epochs t) = ep /\ Forall (epoch (e * n) mb) (t_epochs t) /\ exists f, (0 < f <= 1)%Q /\ t_lr t = lrf f) (trainings its) /\
    length (trainings its) <= total / (e * n).
  Proof.
    intros Hsh Sy H. pose proof H as H0. apply ppo_spec in H; auto. cbv zeta in H. destruct H as (u & st & rw & outs & eps & P & C & En & -> & Hep & _ & _ & _).
    pose proof (ends_len _ _ _ _ _ En) as (L1 & L2). pose proof (calls_length _ _ _ _ _ _ C) as Lo. rewrite counts_length in Lo.
    rewrite transcript_trainings. unfold trainings; cbn [flat_map app]. rewrite fm_one, map_map. cbn [t_rows]. rewrite parts_concat. split; [apply path_firstn; exact P|]. split.
    - apply Forall_forall. intros t Ht. apply in_map_iff in Ht. destruct Ht as (j & <- & Hj). apply in_seq in Hj. cbn [t_rows t_epochs t_lr].
      destruct (Hep j ltac:(lia)) as (E1 & E2). split; [unfold part; rewrite firstn_length, skipn_length; nia|]. split; [exact E1|]. split.
      + destruct rc; [|exact E2]. unfold LN_Model.ppo_learn in H0. destruct (Nat.eqb_spec (e * n) 0) as [Z|Z]; [discriminate H0|]. rewrite ppo_loop in H0.
        assert (Hm : mb <> 0). { intros ->. simpl in H0. destruct (total / (e * n)) eqn:Ed; [lia|]. cbn in H0. discriminate H0. }
        eapply Forall_impl; [|exact E2]. intros b Hb. apply env_epoch_flat; auto; [lia|].
        destruct Hb as (g & (P1 & P2 & P3) & _). assert (Hl : length (concat g) = mb * (e / mb)).
        { clear - P2 P3. subst mb. revert P3. generalize (e / length g). intros q F. induction F as [|x g Hx F IH]; [reflexivity|]. simpl. rewrite app_length, IH, Hx. lia. }
        apply Permutation_length in P1. rewrite Hl, seq_length in P1. rewrite <- P1, Nat.mul_comm, Nat.mod_mul by auto. reflexivity.
      + eexists. split; [|reflexivity].
        assert (Hp : (0 < inject_Z (Z.of_nat (total / (e * n))))%Q) by (change 0%Q with (inject_Z 0); rewrite <- Zlt_Qlt; lia).
        assert (Hq : (inject_Z (Z.of_nat (S j)) <= inject_Z (Z.of_nat (total / (e * n))))%Q) by (rewrite <- Zle_Qle; lia).
        assert (Hz : (1 <= inject_Z (Z.of_nat (S j)))%Q) by (change 1%Q with (inject_Z 1); rewrite <- Zle_Qle; lia).
        set (N := inject_Z (Z.of_nat (total / (e * n)))) in *. set (x := inject_Z (Z.of_nat (S j))) in *.
        assert (D1 : (0 <= (x - 1) / N)%Q) by (apply Qle_shift_div_l; lra).
        assert (D2 : ((x - 1) / N < 1)%Q) by (apply Qlt_shift_div_r; lra). lra.
    - rewrite map_length, seq_length. exact L1.
  Qed.
  Lemma acer_used pois draws lr0 crv ratio size start e n total reset (rs : run) c nt rs' c' nt' its : synced rs ->
    acer_learn pois draws lr0 crv ratio size start e n total reset rs c nt = Some (rs', c', nt', its) ->
    path (r_q rs) (r_env rs) (concat (map t_rows (trainings its))) /\ Forall (fun t => length (t_rows t) = n) (trainings its) /\ length (trainings its) <= (total + e * n - 1) / (e * n).
  Proof.
    intros Sy H. apply acer_spec in H; auto. cbv zeta in H. destruct H as (u & st & rw & outs & P & C & En & -> & _ & _ & _ & _).
    pose proof (ends_len _ _ _ _ _ En) as (L1 & L2). pose proof (calls_length _ _ _ _ _ _ C) as Lo. rewrite counts_length in Lo.
    rewrite transcript_trainings. rewrite train_list, map_map. cbn [t_rows fst]. rewrite parts_concat. split; [apply path_firstn; exact P|]. split.
    - apply Forall_forall. intros t Ht. apply in_map_iff in Ht. destruct Ht as (j & <- & Hj). apply in_seq in Hj. cbn [t_rows fst]. unfold part. rewrite firstn_length, skipn_length. nia.
    - rewrite map_length, seq_length. exact L1.
  Qed.

  (** Learning rates. *)
  Lemma a2c_linear_rate lr0 e n total reset (rs : run) c nt rs' c' nt' its : (0 < lr0)%Q -> synced rs ->
    a2c_learn lr0 linear_schedule e n total reset rs c nt = Some (rs', c', nt', its) -> Forall (fun t => (0 < t_lr t <= lr0)%Q) (trainings its).
  Proof.
    intros Hl Sy H. apply a2c_spec in H; auto. cbv zeta in H. destruct H as (u & st & rw & outs & P & C & En & -> & _ & _ & _).
    pose proof (ends_len _ _ _ _ _ En) as (L1 & L2). rewrite transcript_trainings. unfold trainings; cbn [flat_map app]. rewrite fm_one. apply Forall_forall. intros t Ht. apply in_map_iff in Ht. destruct Ht as (j & <- & Hj).
    apply in_seq in Hj. cbn [t_lr]. unfold linear_schedule.
    assert (Hd : e * n * (total / (e * n)) <= total). { destruct (Nat.eq_dec (e * n) 0) as [Z|Z]; [rewrite Z; lia|]. apply Nat.mul_div_le. exact Z. }
    assert (Hp : (0 < inject_Z (Z.of_nat total))%Q). { unfold Qlt, inject_Z; simpl. destruct total; [|lia]. destruct (Nat.eq_dec (e * n) 0) as [Z|Z]; [rewrite Z in *; simpl in L1; lia|rewrite Nat.div_0_l in L1 by exact Z; lia]. }
    assert (Hq : (inject_Z (Z.of_nat (S j * (e * n) - 1)) < inject_Z (Z.of_nat total))%Q).
    { rewrite <- Zlt_Qlt. assert (S j * (e * n) <= e * n * (total / (e * n))) by nia. unfold Qlt, inject_Z in Hp; simpl in Hp. lia. }
    assert (Hz : (0 <= inject_Z (Z.of_nat (S j * (e * n) - 1)))%Q) by (change 0%Q with (inject_Z 0); rewrite <- Zle_Qle; lia).
    change (j * (e * n)) with (j * (e * n)). set (N := inject_Z (Z.of_nat total)) in *.
    assert (D : forall x, (0 <= x)%Q -> (x < N)%Q -> (0 < lr0 * (1 - x / N) <= lr0)%Q).
    { intros x X1 X2. assert (D1 : (0 <= x / N)%Q) by (apply Qle_shift_div_l; lra). assert (D2 : (x / N < 1)%Q) by (apply Qlt_shift_div_r; lra). split; nra. }
    apply D; auto.
  Qed.
  Lemma acer_linear_rate pois draws lr0 ratio size start e n total (rs : run) c nt rs' c' nt' its : (0 < lr0)%Q -> synced rs ->
    acer_learn pois draws lr0 linear_schedule ratio size start e n total true rs c nt = Some (rs', c', nt', its) ->
    length (trainings its) = (total + e * n - 1) / (e * n) -> 1 <= total ->
    exists t, nth_error (trainings its) (length (trainings its) - 1) = Some t /\ (t_lr t <= 0)%Q /\ (total mod (e * n) <> 0 -> (t_lr t < 0)%Q).
  Proof.
    intros Hl Sy H. assert (Z : e * n <> 0). { unfold LN_Model.acer_learn in H. destruct (Nat.eqb_spec (e * n) 0); [discriminate H|auto]. }
    apply acer_spec in H; auto. cbv zeta in H. destruct H as (u & st & rw & outs & P & C & En & -> & _ & _ & _ & _).
    rewrite transcript_trainings. rewrite train_list, map_length, seq_length. intros Hu Ht.
    assert (Hu1 : 1 <= u). { rewrite Hu. apply Nat.div_le_lower_bound; lia. }
    rewrite nth_error_map. rewrite (nth_error_nth' _ 0) by (rewrite seq_length; lia). rewrite seq_nth by lia. cbn [option_map Nat.add].
    eexists. split; [reflexivity|]. cbn [t_lr]. unfold linear_schedule. replace (S (u - 1)) with u by lia.
    assert (Hb : total <= e * n * u /\ (total mod (e * n) <> 0 -> total < e * n * u)).
    { pose proof (Nat.div_mod (total + e * n - 1) (e * n) Z) as D. pose proof (Nat.mod_upper_bound (total + e * n - 1) (e * n) Z) as B. rewrite <- Hu in D. split; [lia|]. intros M.
      destruct (Nat.eq_dec total (e * n * u)) as [E|E]; [|lia]. exfalso. apply M. rewrite E, Nat.mul_comm. apply Nat.mod_mul. exact Z. }
    assert (Hp : (0 < inject_Z (Z.of_nat total))%Q) by (unfold Qlt, inject_Z; simpl; lia). set (N := inject_Z (Z.of_nat total)) in *.
    split.
    - assert (Hq : (N <= inject_Z (Z.of_nat (e * n * u)))%Q) by (unfold N; rewrite <- Zle_Qle; lia). assert (D1 : (1 <= inject_Z (Z.of_nat (e * n * u)) / N)%Q) by (apply Qle_shift_div_l; lra). nra.
    - intros M. assert (Hq : (N < inject_Z (Z.of_nat (e * n * u)))%Q) by (unfold N; rewrite <- Zlt_Qlt; lia). assert (D1 : (1 < inject_Z (Z.of_nat (e * n * u)) / N)%Q) by (apply Qlt_shift_div_l; lra). nra.
  Qed.
  Lemma acer_linear_again pois draws lr0 ratio size start e n total (rs : run) c nt rs' c' nt' its : (0 < lr0)%Q -> synced rs ->
    acer_learn pois draws lr0 linear_schedule ratio size start e n total false rs c nt = Some (rs', c', nt', its) -> total <= nt ->
    Forall (fun t => (t_lr t < 0)%Q) (trainings its).
  Proof.
    intros Hl Sy H Hnt. assert (Z : e * n <> 0). { unfold LN_Model.acer_learn in H. destruct (Nat.eqb_spec (e * n) 0); [discriminate H|auto]. }
    apply acer_spec in H; auto. cbv zeta in H. destruct H as (u & st & rw & outs & P & C & En & -> & _ & _ & _ & _).
    pose proof (ends_len _ _ _ _ _ En) as (L1 & L2).
    rewrite transcript_trainings. rewrite train_list. apply Forall_forall. intros t Ht. apply in_map_iff in Ht. destruct Ht as (j & <- & Hj). apply in_seq in Hj. cbn [t_lr]. unfold linear_schedule.
    assert (Ht : total <> 0). { intros ->. rewrite Nat.div_small in L1 by lia. lia. }
    assert (Hp : (0 < inject_Z (Z.of_nat total))%Q) by (unfold Qlt, inject_Z; simpl; lia). set (N := inject_Z (Z.of_nat total)) in *.
    assert (Hq : (N < inject_Z (Z.of_nat (nt + e * n * S j)))%Q) by (unfold N; rewrite <- Zlt_Qlt; nia). assert (D1 : (1 < inject_Z (Z.of_nat (nt + e * n * S j)) / N)%Q) by (apply Qlt_shift_div_l; lra). nra.
  Qed.

  (** Replays. *)
  Lemma acer_replays pois draws lr0 crv ratio size start e n total reset (rs : run) c nt rs' c' nt' its : synced rs ->
    acer_learn pois draws lr0 crv ratio size start e n total reset rs c nt = Some (rs', c', nt', its) ->
    (ratio = false \/ size / n < start / n -> replays its = []) /\
    (ratio = true -> length (replays its) = list_sum (map (fun j => if start / n <=? min (S j) (size / n) then pois j else 0) (seq 0 (length (trainings its))))).
  Proof.
    intros Sy H. apply acer_spec in H; auto. cbv zeta in H. destruct H as (u & st & rw & outs & P & C & En & -> & _ & _ & _ & _).
    rewrite transcript_replays. split.
    - intros Hr. apply fm_nil. intros j _. rewrite replay_one. unfold replayed. destruct Hr as [->|Hr]; [reflexivity|].
      assert (start / n <=? min (1 + j) (size / n) = false) as -> by (apply Nat.leb_gt; lia). rewrite andb_false_r. reflexivity.
    - intros Hr. rewrite transcript_trainings, train_list, map_length, seq_length.
      generalize (seq 0 u). intros l. induction l as [|j l IH]; [reflexivity|]. cbn [flat_map map list_sum fold_right]. rewrite app_length, IH. f_equal.
      rewrite replay_one. unfold replayed. change (1 + j) with (S j). rewrite Hr. cbn [andb]. destruct (start / n <=? min (S j) (size / n)); [|reflexivity]. rewrite map_length, seq_length. reflexivity.
  Qed.
End R.
