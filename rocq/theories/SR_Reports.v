(** Reports, rates and temperatures of the annealing chain, and when it completes. *)
Require Import List ZArith Arith Lia Bool Reals Lra.
Require Import Verif.SR_Model Verif.SR_Spec Verif.SR_Proofs.
Import ListNotations.

(** ** Which steps are reported. *)
Definition due (c : card) (k : nat) : bool := ((k mod c_freq c =? 0) || (k =? c_steps c))%bool.

Lemma due_true : forall c k, due c k = true <-> (k mod c_freq c = 0 \/ k = c_steps c).
Proof.
  intros c k. unfold due. rewrite orb_true_iff, !Nat.eqb_eq. tauto.
Qed.

Lemma seq_snoc : forall n a, seq a (S n) = seq a n ++ [a + n].
Proof. intros. rewrite seq_S. reflexivity. Qed.

Lemma windows_snoc : forall l a b, windows a (l ++ [b]) = windows a l ++ [(last l a, b)].
Proof.
  induction l as [|x l IH]; intros a b; [reflexivity|].
  cbn [windows app]. rewrite IH. cbn [app]. f_equal. f_equal. f_equal. f_equal.
  destruct l as [|y l]; [reflexivity|]. clear. revert y. induction l as [|z l IH]; intros y; [reflexivity|].
  change (last (y :: z :: l) x) with (last (z :: l) x).
  change (last (x :: y :: z :: l) a) with (last (x :: z :: l) a). apply IH.
Qed.

Lemma counts_app : forall V (P : V -> Prop) l1 n1 l2 n2,
  counts P l1 n1 -> counts P l2 n2 -> counts P (l1 ++ l2) (n1 + n2).
Proof.
  intros V P l1 n1 l2 n2 H. revert n2. induction H; intros n2 H2; cbn; auto.
  - constructor; auto.
  - apply counts_no; auto.
Qed.

(** The counters cover the steps since the last report. *)
Record tally_ok (c : card) (s : state) : Prop := {
  t_len : length (s_events s) = s_step s;
  t_freq : s_step s = 0 \/ c_freq c <> 0;
  t_steps : map r_step (s_reports s) = filter (due c) (seq 1 (s_step s));
  t_last : last (map r_step (s_reports s)) 0 <= s_step s;
  t_trials : s_trials s = s_step s - last (map r_step (s_reports s)) 0;
  t_acc : counts accepted (skipn (last (map r_step (s_reports s)) 0) (s_events s)) (s_accepts s);
  t_imp : counts improving (skipn (last (map r_step (s_reports s)) 0) (s_events s)) (s_improves s);
  t_all : Forall2 (fun w r =>
      r_trials r = snd w - fst w /\ fst w < snd w /\ snd w <= s_step s /\
      counts accepted (firstn (snd w - fst w) (skipn (fst w) (s_events s))) (r_accepts r) /\
      counts improving (firstn (snd w - fst w) (skipn (fst w) (s_events s))) (r_improves r))
    (windows 0 (map r_step (s_reports s))) (s_reports s) }.

Lemma skipn_snoc : forall V (l : list V) a k, k <= length l -> skipn k (l ++ [a]) = skipn k l ++ [a].
Proof. intros V l a k H. rewrite skipn_app. replace (k - length l) with 0 by lia. reflexivity. Qed.

Lemma firstn_skipn_snoc : forall V (l : list V) a i k, i + k <= length l ->
  firstn k (skipn i (l ++ [a])) = firstn k (skipn i l).
Proof.
  intros V l a i k H. rewrite skipn_snoc by lia. rewrite firstn_app.
  rewrite skipn_length. replace (k - (length l - i)) with 0 by lia. cbn [firstn]. apply app_nil_r.
Qed.

Lemma Forall2_snoc : forall V W (P : V -> W -> Prop) l1 l2 a b,
  Forall2 P l1 l2 -> P a b -> Forall2 P (l1 ++ [a]) (l2 ++ [b]).
Proof. intros. apply Forall2_app; auto. Qed.
Lemma Forall2_imp : forall V W (P Q : V -> W -> Prop) l1 l2,
  (forall a b, P a b -> Q a b) -> Forall2 P l1 l2 -> Forall2 Q l1 l2.
Proof. intros V W P Q l1 l2 H H2. induction H2; constructor; auto. Qed.

Lemma tally_step : forall fuel c l fit d s s',
  tally_ok c s -> anneal_step fuel c l fit d s = Done s' -> tally_ok c s'.
Proof.
  intros fuel c l fit d s s' [L Fr St La Tr Ac Im Al] H. apply step_inv in H.
  destruct H as (T & m & ev & HT & Hm & Hf & E1 & E2 & E3 & _ & _ & a & i & Ca & Ci & Hr).
  set (z := last (map r_step (s_reports s)) 0) in *.
  assert (Ac' : counts accepted (skipn z (s_events s')) (s_accepts s + a)).
  { rewrite E3, skipn_snoc by lia. apply counts_app; auto. }
  assert (Im' : counts improving (skipn z (s_events s')) (s_improves s + i)).
  { rewrite E3, skipn_snoc by lia. apply counts_app; auto. }
  assert (Hold : Forall2 (fun w r =>
      r_trials r = snd w - fst w /\ fst w < snd w /\ snd w <= s_step s' /\
      counts accepted (firstn (snd w - fst w) (skipn (fst w) (s_events s'))) (r_accepts r) /\
      counts improving (firstn (snd w - fst w) (skipn (fst w) (s_events s'))) (r_improves r))
    (windows 0 (map r_step (s_reports s))) (s_reports s)).
  { eapply Forall2_imp; [|exact Al]. cbn. intros w r (A & B & C & D & E).
    rewrite E3, !firstn_skipn_snoc by lia. repeat split; auto. lia. }
  destruct Hr as [(Hd & Q1 & Q2 & Q3 & Q4)|(Hd & Q1 & Q2 & Q3 & Q4)].
  - assert (Hlast : last (map r_step (s_reports s')) 0 = S (s_step s)).
    { rewrite Q4, map_app. cbn [map r_step]. apply last_snoc. }
    constructor.
    + rewrite E3, E1, app_length. cbn [length]. lia.
    + auto.
    + rewrite Q4, map_app, St, E1, seq_snoc, filter_app. cbn [map r_step filter].
      replace (1 + s_step s) with (S (s_step s)) by reflexivity.
      apply due_true in Hd. rewrite Hd. reflexivity.
    + lia.
    + lia.
    + rewrite Hlast, Q2. rewrite skipn_all2; [constructor|]. rewrite E3, app_length. cbn [length]. lia.
    + rewrite Hlast, Q3. rewrite skipn_all2; [constructor|]. rewrite E3, app_length. cbn [length]. lia.
    + rewrite Q4, map_app. cbn [map r_step]. rewrite windows_snoc. apply Forall2_snoc; [exact Hold|].
      cbn [fst snd r_trials r_accepts r_improves]. fold z.
      assert (Hle : length (skipn z (s_events s')) <= S (s_step s) - z).
      { rewrite skipn_length, E3, app_length. cbn [length]. lia. }
      rewrite !firstn_all2 by exact Hle. repeat split; auto; lia.
  - constructor.
    + rewrite E3, E1, app_length. cbn [length]. lia.
    + auto.
    + rewrite Q4, St, E1, seq_snoc, filter_app. cbn [filter].
      replace (1 + s_step s) with (S (s_step s)) by reflexivity.
      destruct (due c (S (s_step s))) eqn:E; [|rewrite app_nil_r; reflexivity].
      apply due_true in E. contradiction.
    + rewrite Q4. fold z. lia.
    + rewrite Q4. fold z. lia.
    + rewrite Q4, Q2. exact Ac'.
    + rewrite Q4, Q3. exact Im'.
    + rewrite Q4. exact Hold.
Qed.

Lemma build_tally : forall fuel c fit raws D s,
  build fuel c fit raws D = Done s -> tally_ok c s.
Proof.
  intros fuel c fit raws D s H. apply build_inv in H. destruct H as (l & x0 & Hl & Hx & _ & H).
  apply (loop_inv fuel c l fit D (tally_ok c)) in H.
  - tauto.
  - intros a b _ Ha Hs. eapply tally_step; eauto.
  - constructor; cbn; auto; constructor.
Qed.

Lemma build_reports : forall fuel c fit raws D s,
  build fuel c fit raws D = Done s ->
  forall k, In k (map r_step (s_reports s)) <->
            (1 <= k <= S (c_steps c) /\ (k mod c_freq c = 0 \/ k = c_steps c)).
Proof.
  intros fuel c fit raws D s H k. pose proof (build_tally _ _ _ _ _ _ H) as [_ _ St _ _ _ _ _].
  apply build_inv in H. destruct H as (l & x0 & _ & _ & _ & H). apply loop_count in H; try reflexivity.
  rewrite St, (proj1 H), filter_In, in_seq, due_true. split; intros (A & B); (split; [lia|exact B]).
Qed.
Lemma build_rates : forall fuel c fit raws D s,
  build fuel c fit raws D = Done s ->
  Forall2 (fun w r =>
      r_trials r = snd w - fst w /\ fst w < snd w /\
      counts accepted (firstn (snd w - fst w) (skipn (fst w) (s_events s))) (r_accepts r) /\
      counts improving (firstn (snd w - fst w) (skipn (fst w) (s_events s))) (r_improves r))
    (windows 0 (map r_step (s_reports s))) (s_reports s).
Proof.
  intros fuel c fit raws D s H. pose proof (build_tally _ _ _ _ _ _ H) as [_ _ _ _ _ _ _ Al].
  eapply Forall2_imp; [|exact Al]. cbn. tauto.
Qed.

(** ** Temperatures. *)
Lemma build_temp : forall fuel c fit raws D s k e,
  build fuel c fit raws D = Done s -> nth_error (s_events s) k = Some e -> temperature c (S k) = Some (e_temp e).
Proof.
  intros fuel c fit raws D s k e H Hk. apply build_chain in H. destruct H as (l & x0 & _ & _ & K).
  apply (ok_data _ _ _ _ _ K) in Hk. tauto.
Qed.

Lemma INR_S_pos : forall k, (0 < INR (S k))%R.
Proof. intros k. apply lt_0_INR. lia. Qed.
Lemma ln_pos : forall x, (1 < x)%R -> (0 < ln x)%R.
Proof. intros x H. rewrite <- ln_1. apply ln_increasing; lra. Qed.
Lemma fast_temp : forall c k, c_cooling c = Fast -> (0 < c_tmin c)%R -> (0 < c_tmax c)%R -> c_steps c <> 0 ->
  temperature c k = Some (c_tmax c * Rpower (c_tmin c / c_tmax c) (INR k / INR (c_steps c)))%R.
Proof.
  intros c k Hc H1 H2 Hs. unfold temperature. rewrite Hc. f_equal. f_equal. unfold Rpower. f_equal.
  assert (INR (c_steps c) <> 0)%R by (apply not_0_INR; exact Hs).
  unfold Rdiv. rewrite !ln_mult by (try apply Rinv_0_lt_compat; lra). rewrite !ln_Rinv by lra. ring.
Qed.
Lemma div_lt_1 : forall a b, (0 < a)%R -> (a < b)%R -> (1 < b / a)%R.
Proof.
  intros a b Ha H. apply (Rmult_lt_reg_r a); [exact Ha|]. unfold Rdiv. rewrite Rmult_assoc, Rinv_l by lra. lra.
Qed.

Lemma some_inj : forall a b : R, Some a = Some b -> a = b.
Proof. congruence. Qed.

(** Under the three schedules the temperature falls and stays positive. *)
Lemma temp_falls : forall c k T T',
  (0 < c_tmin c)%R -> (c_tmin c < c_tmax c)%R -> c_steps c <> 0 ->
  temperature c (S k) = Some T -> temperature c (S (S k)) = Some T' -> (0 < T' < T)%R.
Proof.
  intros c k T T' H1 H2 Hs. unfold temperature. assert (Hk := INR_S_pos k).
  destruct (c_cooling c); intros HT HT'; try discriminate; apply some_inj in HT; apply some_inj in HT'; subst T T'.
  - assert (Hst : (0 < INR (c_steps c))%R) by (apply lt_0_INR; lia).
    assert (Hl : (0 < ln (c_tmax c / c_tmin c))%R) by (apply ln_pos, div_lt_1; lra).
    split; [apply Rmult_lt_0_compat; [lra|apply exp_pos]|].
    apply Rmult_lt_compat_l; [lra|]. apply exp_increasing. rewrite (S_INR (S k)).
    unfold Rdiv. apply Rmult_lt_compat_r; [apply Rinv_0_lt_compat; exact Hst|]. nra.
  - assert (Hl : (0 < ln (INR (S k) + 1))%R) by (apply ln_pos; lra).
    assert (Hl' : (ln (INR (S k) + 1) < ln (INR (S (S k)) + 1))%R) by (apply ln_increasing; rewrite ?(S_INR (S k)); lra).
    split; [apply Rdiv_lt_0_compat; lra|]. unfold Rdiv. apply Rmult_lt_compat_l; [lra|].
    apply Rinv_lt_contravar; [|exact Hl']. apply Rmult_lt_0_compat; lra.
  - rewrite (S_INR (S k)). split; [apply Rdiv_lt_0_compat; lra|]. unfold Rdiv. apply Rmult_lt_compat_l; [lra|].
    apply Rinv_lt_contravar; [|lra]. apply Rmult_lt_0_compat; lra.
Qed.

Lemma build_cools : forall fuel c fit raws D s k e e',
  build fuel c fit raws D = Done s ->
  (0 < c_tmin c)%R -> (c_tmin c < c_tmax c)%R -> c_steps c <> 0 ->
  nth_error (s_events s) k = Some e -> nth_error (s_events s) (S k) = Some e' ->
  (0 < e_temp e' < e_temp e)%R.
Proof.
  intros fuel c fit raws D s k e e' H H1 H2 Hs He He'.
  apply (temp_falls c k); auto; eapply build_temp; eauto.
Qed.

Lemma build_fast : forall fuel c fit raws D s k e,
  build fuel c fit raws D = Done s -> c_cooling c = Fast ->
  (0 < c_tmin c)%R -> (0 < c_tmax c)%R -> c_steps c <> 0 ->
  nth_error (s_events s) k = Some e ->
  e_temp e = (c_tmax c * Rpower (c_tmin c / c_tmax c) (INR (S k) / INR (c_steps c)))%R.
Proof.
  intros fuel c fit raws D s k e H Hc H1 H2 Hs He.
  apply (build_temp _ _ _ _ _ _ _ _ H) in He. rewrite fast_temp in He; auto. congruence.
Qed.

(** The move after the last one asked for is made below [Tmin]. *)
Lemma build_below : forall fuel c fit raws D s,
  build fuel c fit raws D = Done s -> c_cooling c = Fast ->
  (0 < c_tmin c)%R -> (c_tmin c < c_tmax c)%R -> c_steps c <> 0 ->
  exists e e', nth_error (s_events s) (c_steps c - 1) = Some e /\ e_temp e = c_tmin c /\
               nth_error (s_events s) (c_steps c) = Some e' /\ (e_temp e' < c_tmin c)%R.
Proof.
  intros fuel c fit raws D s H Hc H1 H2 Hs. pose proof (build_count _ _ _ _ _ _ H) as Hn.
  destruct (nth_error (s_events s) (c_steps c - 1)) as [e|] eqn:E1;
    [|apply nth_error_None in E1; lia].
  destruct (nth_error (s_events s) (c_steps c)) as [e'|] eqn:E2;
    [|apply nth_error_None in E2; lia].
  exists e, e'. split; [reflexivity|].
  assert (Ht : e_temp e = c_tmin c).
  { rewrite (build_fast _ _ _ _ _ _ (c_steps c - 1) e H Hc H1) by (auto; lra).
    replace (S (c_steps c - 1)) with (c_steps c) by lia.
    assert (INR (c_steps c) <> 0)%R by (apply not_0_INR; exact Hs).
    unfold Rdiv at 2. rewrite Rinv_r by assumption. rewrite Rpower_1.
    - field. lra.
    - apply Rdiv_lt_0_compat; lra. }
  split; [exact Ht|]. split; [reflexivity|]. rewrite <- Ht.
  apply (build_cools _ _ _ _ _ _ (c_steps c - 1) e e' H); auto.
  replace (S (c_steps c - 1)) with (c_steps c) by lia. exact E2.
Qed.

(** Boltzmann cooling starts above [Tmax], Cauchy cooling at half of it. *)
Lemma build_first : forall fuel c fit raws D s,
  build fuel c fit raws D = Done s -> (0 < c_tmax c)%R ->
  exists e, nth_error (s_events s) 0 = Some e /\
    (c_cooling c = Boltzmann -> (c_tmax c < e_temp e)%R) /\
    (c_cooling c = Cauchy -> e_temp e = (c_tmax c / 2)%R).
Proof.
  intros fuel c fit raws D s H Ht. pose proof (build_count _ _ _ _ _ _ H) as Hn.
  destruct (nth_error (s_events s) 0) as [e|] eqn:E; [|apply nth_error_None in E; lia].
  exists e. split; [reflexivity|]. apply (build_temp _ _ _ _ _ _ _ _ H) in E. unfold temperature in E.
  split; intros Hc; rewrite Hc in E; apply some_inj in E; rewrite <- E; cbn [INR].
  - assert (H2 : (0 < ln (1 + 1))%R) by (apply ln_pos; lra).
    assert (H3 : (ln (1 + 1) < 1)%R).
    { assert (H4 : (ln (1 + 1) < ln (exp 1))%R).
      { apply ln_increasing; [lra|]. pose proof (exp_ineq1 1 ltac:(lra)). lra. }
      rewrite ln_exp in H4. exact H4. }
    apply (Rmult_lt_reg_r (ln (1 + 1))); [exact H2|]. unfold Rdiv. rewrite Rmult_assoc, Rinv_l by lra. nra.
  - reflexivity.
Qed.

Lemma build_slow : forall fuel c fit raws D s k e,
  build fuel c fit raws D = Done s -> nth_error (s_events s) k = Some e ->
  (c_cooling c = Boltzmann -> e_temp e = (c_tmax c / ln (INR (S k) + 1))%R) /\
  (c_cooling c = Cauchy -> e_temp e = (c_tmax c / (INR (S k) + 1))%R).
Proof.
  intros fuel c fit raws D s k e H Hk. apply (build_temp _ _ _ _ _ _ _ _ H) in Hk. unfold temperature in Hk.
  split; intros Hc; rewrite Hc in Hk; apply some_inj in Hk; symmetry; exact Hk.
Qed.

(** ** Refusals. *)
Lemma build_start_raises : forall fuel c fit raws D x,
  c_start c = Some x -> 2 <= length x -> build fuel c fit raws D = Raises.
Proof.
  intros fuel c fit raws D x H Hx. unfold build. destruct (init_limits c) as [l| |] eqn:E; cbn; auto.
  - unfold init_x. rewrite H. destruct (2 <=? length x) eqn:E2; [reflexivity|]. apply Nat.leb_gt in E2. lia.
  - unfold init_limits in E. destruct (c_lb c), (c_ub c); discriminate.
Qed.
Lemma build_unbounded_raises : forall fuel c fit raws D,
  c_lb c = None \/ c_ub c = None -> build fuel c fit raws D = Raises.
Proof.
  intros fuel c fit raws D H. unfold build, init_limits. destruct H as [H|H]; rewrite H; [reflexivity|].
  destruct (c_lb c); reflexivity.
Qed.
