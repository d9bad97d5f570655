(** Consequences for users of DQN.learn (C78). *)
From Coq Require Import List Arith ZArith QArith Bool Lia Lqa Qround.
From Verif Require Import Base BaseFacts Opt_Model Opt_Facts2 Sched_Model CB_Model CB_Spec CB_Proofs CB_Total Replay_Model LN_Spec LN_Proofs LN_Algs LN_Acer LN_More DQ_Model DQ_Spec DQ_Proofs.
Import ListNotations.
Open Scope nat_scope.

Lemma epsilon_range p total nt : horizon p total <> 0 -> (p_final p <= p_init p)%Q -> (p_final p <= epsilon p total nt <= p_init p)%Q.
Proof.
  intros Hz Hp. unfold epsilon, qmin. set (x := (inject_Z (Z.of_nat nt) / inject_Z (Z.of_nat (horizon p total)))%Q).
  assert (Hx : (0 <= x)%Q). { unfold x. apply Qle_shift_div_l; [change 0%Q with (inject_Z 0); rewrite <- Zlt_Qlt; lia|]. rewrite Qmult_0_l. change 0%Q with (inject_Z 0). rewrite <- Zle_Qle. lia. }
  destruct (Qle_bool x 1) eqn:E.
  - apply Qle_bool_iff in E. split; nra.
  - split; lra.
Qed.
Lemma epsilon_late p total nt : horizon p total <> 0 -> horizon p total <= nt -> (epsilon p total nt == p_final p)%Q.
Proof.
  intros Hz Hn. unfold epsilon, qmin. set (x := (inject_Z (Z.of_nat nt) / inject_Z (Z.of_nat (horizon p total)))%Q).
  assert (Hx : (1 <= x)%Q). { unfold x. apply Qle_shift_div_l; [change 0%Q with (inject_Z 0); rewrite <- Zlt_Qlt; lia|]. rewrite Qmult_1_l. rewrite <- Zle_Qle. lia. }
  destruct (Qle_bool x 1) eqn:E; [apply Qle_bool_iff in E; assert (x == 1)%Q as -> by lra|]; lra.
Qed.

(** A call of a callback is no notification. *)
Definition no_signal (e : event) : Prop := match e with ESignal _ _ => False | _ => True end.
Lemma step_no_signal ans ev c : forall par ts c' e a, on_step ans ev par ts c = Some (c', e, a) -> Forall no_signal e.
Proof.
  induction c as [id n|id freq n|k la n c IHc|id f n best|id f n best c IHc|t n|n l H0] using cb_induction; intros par ts c' e a H; cbn [on_step] in H.
  - injection H as <- <- <-. repeat constructor.
  - destruct (freq =? 0); [discriminate H|]. injection H as <- <- <-. destruct (_ =? 0); repeat constructor.
  - destruct (_ <=? ts); [|injection H as <- <- <-; constructor]. apply bind_Some in H. destruct H as ([[ch e1] a1] & E & H). injection H as <- <- <-. eapply IHc; eauto.
  - destruct (_ && _); [|injection H as <- <- <-; constructor]. destruct (match best with None => true | Some b => Qltb b _ end); injection H as <- <- <-; repeat constructor.
  - destruct (_ && _); [|injection H as <- <- <-; constructor]. destruct (match best with None => true | Some b => Qltb b _ end); [|injection H as <- <- <-; repeat constructor].
    apply bind_Some in H. destruct H as ([[ch e1] a1] & E & H). injection H as <- <- <-. constructor; [exact I|]. constructor; [exact I|]. eapply IHc; eauto.
  - destruct par; [|discriminate H]. injection H as <- <- <-. constructor.
  - apply bind_Some in H. destruct H as ([[l' e1] a1] & E & H). injection H as <- <- <-. revert l' e1 a1 E. generalize Go as acc.
    induction H0 as [|x l Hx Hl IH]; intros acc l' e1 a1 E; cbn [chain] in E.
    + injection E as <- <- <-. constructor.
    + apply bind_Some in E. destruct E as ([[c1 e2] a2] & E1 & E). apply bind_Some in E. destruct E as ([[r1 e3] a3] & E2 & E). injection E as <- <- <-.
      apply Forall_app. split; [eapply Hx; eauto|eapply IH; eauto].
Qed.
Lemma calls_no_signal ans ev tss : forall c c' outs, calls ans ev c tss = Some (c', outs) -> Forall (fun o => Forall no_signal (fst o)) outs.
Proof.
  induction tss as [|t r IH]; intros c c' outs H; cbn [calls] in H; [injection H as <- <-; constructor|].
  apply bind_Some in H. destruct H as ([[c1 e] a] & E & H). apply bind_Some in H. destruct H as ([c2 o] & E2 & H). injection H as <- <-. constructor; [eapply step_no_signal; eauto|eapply IH; eauto].
Qed.

Section D.
  Context {St O A : Type} (enext : St -> A -> St) (rew : St -> A -> Q) (obs_of : St -> O) (done_of : St -> bool) (ereset : St -> St) (vec : bool)
          (act : nat -> Q -> O -> A) (ans : nat -> nat -> answer) (ev : nat -> nat -> Q) (draws : nat -> nat -> nat).
  Notation dqn_steps := (dqn_steps enext rew obs_of done_of ereset vec act ans ev draws).
  Notation dqn_learn := (dqn_learn enext rew obs_of done_of ereset vec act ans ev draws).
  Notation dpath := (dpath enext rew obs_of done_of ereset vec act).
  Notation updates := (updates enext done_of ereset vec).
  Notation step_log := (step_log enext done_of ereset vec).
  Notation calls := (calls ans ev).
  Notation tr := (@transition O A).
  Notation buf := (@buffer O A).
  Notation items := (list (ditem St O A)).

  (** Filtering a transcript. *)
  Definition done_steps (stopped : bool) (m : nat) : nat := if stopped then m - 1 else m.
  Lemma log_fm {Y} (h : ditem St O A -> list Y) p total c nt0 s0 stopped rows outs :
    (forall s a e, h (DEnv s a e) = []) -> Forall (fun o => forall e, In e (fst o) -> h (DEv e) = []) outs -> length outs = length rows -> (stopped = true -> 1 <= length rows) ->
    flat_map h (flat_map (step_log p total draws c nt0 s0 stopped rows outs) (seq 0 (length rows))) =
    flat_map (fun j => match nth_error rows j with Some r => flat_map h (updates p total draws c nt0 s0 rows j r) | None => [] end) (seq 0 (done_steps stopped (length rows))).
  Proof.
    intros H1 H2 Lo Hst. rewrite fm_fm.
    assert (E : forall j, In j (seq 0 (length rows)) -> flat_map h (step_log p total draws c nt0 s0 stopped rows outs j) =
      if stopped && (1 + j =? length rows) then [] else match nth_error rows j with Some r => flat_map h (updates p total draws c nt0 s0 rows j r) | None => [] end).
    { intros j Hj. apply in_seq in Hj. unfold DQ_Spec.step_log. destruct (nth_error rows j) as [r|] eqn:Er; [|destruct (_ && _); reflexivity].
      destruct (nth_error outs j) as [o|] eqn:Eo; [|apply nth_error_None in Eo; lia]. cbn [flat_map]. rewrite H1, flat_map_app. cbn [app].
      assert (flat_map h (map DEv (fst o)) = []) as ->. { rewrite fm_map. apply fm_nil. intros e He. apply nth_error_In in Eo. rewrite Forall_forall in H2. apply (H2 o Eo e He). }
      destruct (_ && _); reflexivity. }
    rewrite (fm_ext_in _ _ _ E). unfold done_steps. destruct stopped; [|reflexivity].
    specialize (Hst eq_refl). assert (Es : seq 0 (length rows) = seq 0 (length rows - 1) ++ [length rows - 1]) by (change [length rows - 1] with (seq (0 + (length rows - 1)) 1); rewrite <- (seq_app (length rows - 1) 1 0); f_equal; lia). rewrite Es, flat_map_app. cbn [flat_map].
    assert (true && (1 + (length rows - 1) =? length rows) = true) as -> by (apply Nat.eqb_eq; lia). rewrite !app_nil_r.
    apply fm_ext_in. intros j Hj. apply in_seq in Hj. assert (true && (1 + j =? length rows) = false) as -> by (apply Nat.eqb_neq; lia). reflexivity.
  Qed.

  Lemma dends_len total stopped (outs : list (list event * answer)) : dends total stopped outs -> length outs <= total /\ (stopped = true -> 1 <= length outs).
  Proof. unfold dends. destruct stopped; intros H; split; try tauto; try lia; discriminate. Qed.

  Lemma fm_if {X} (P : nat -> bool) (f : nat -> X) l : flat_map (fun j => if P j then [f j] else []) l = map f (filter P l).
  Proof. induction l as [|j l IH]; [reflexivity|]. cbn [flat_map filter]. destruct (P j); cbn [map app]; rewrite IH; reflexivity. Qed.

  Lemma train_times_ok p total reset s q c nt sf qf cf ntf its : dqn_learn p total reset s q c nt = Some (sf, qf, cf, ntf, its) ->
    let nt0 := if reset then 0 else nt in
    exists m, nt0 <= ntf /\ (ntf - nt0 = m /\ m = total \/ ntf - nt0 = S m /\ m < total) /\
      train_times its = map (fun j => nt0 + (1 + j)) (filter (time_for p (p_freq p) nt0) (seq 0 m)) /\
      target_times its = map (fun j => nt0 + (1 + j)) (filter (time_for p (p_target p) nt0) (seq 0 m)).
  Proof.
    intros H nt0. apply dqn_spec in H. cbv zeta in H. fold nt0 in H. destruct H as (st & rows & outs & P & C & D & -> & ->).
    pose proof (calls_length _ _ _ _ _ _ C) as Lo. rewrite counts_length in Lo. pose proof (dends_len _ _ _ D) as (L1 & L2).
    exists (done_steps st (length rows)). split; [lia|]. split.
    { unfold done_steps, dends in *. destruct st; [right|left]; lia. }
    assert (G : forall h : ditem St O A -> list nat, (forall s a e, h (DEnv s a e) = []) -> (forall e, h (DEv e) = []) -> (forall s, h (DReset s) = []) ->
      flat_map h (map DEv (notify TrainingStart c) ++ map DEv (notify RolloutStart c) ++ DReset s :: flat_map (step_log p total draws c nt0 (ereset s) st rows outs) (seq 0 (length rows)) ++ map DEv (notify TrainingEnd c)) =
      flat_map (fun j => match nth_error rows j with Some r => flat_map h (updates p total draws c nt0 (ereset s) rows j r) | None => [] end) (seq 0 (done_steps st (length rows)))).
    { intros h E1 E2 E3. rewrite !flat_map_app. cbn [flat_map]. rewrite flat_map_app, E3. rewrite !fm_map. rewrite !(fm_nil (fun x => h (DEv x))) by auto. cbn [app]. rewrite app_nil_r.
      apply log_fm; auto; [apply Forall_forall; auto|]. intros Es. specialize (L2 Es). lia. }
    split.
    - unfold train_times. rewrite G by reflexivity. rewrite <- fm_if. apply fm_ext_in. intros j Hj. apply in_seq in Hj.
      destruct (nth_error rows j) as [r|] eqn:Er; [|apply nth_error_None in Er; unfold done_steps in Hj; destruct st; lia].
      unfold DQ_Spec.updates. rewrite !flat_map_app.
      match goal with |- ?x ++ ?y ++ ?z = _ => assert (x = []) as -> by (destruct (_ && _); reflexivity); assert (z = []) as -> by (destruct (time_for p (p_target p) nt0 j); reflexivity) end.
      rewrite app_nil_r. cbn [app]. destruct (time_for p (p_freq p) nt0 j); [|reflexivity]. rewrite flat_map_app. cbn [flat_map]. rewrite !fm_map, !fm_nil by reflexivity. reflexivity.
    - unfold target_times. rewrite G by reflexivity. rewrite <- fm_if. apply fm_ext_in. intros j Hj. apply in_seq in Hj.
      destruct (nth_error rows j) as [r|] eqn:Er; [|apply nth_error_None in Er; unfold done_steps in Hj; destruct st; lia].
      unfold DQ_Spec.updates. rewrite !flat_map_app.
      match goal with |- ?x ++ ?y ++ ?z = _ => assert (x = []) as -> by (destruct (_ && _); reflexivity); assert (y = []) as -> end.
      { destruct (time_for p (p_freq p) nt0 j); [|reflexivity]. rewrite flat_map_app. cbn [flat_map]. rewrite !fm_map, !fm_nil by reflexivity. reflexivity. }
      cbn [app]. destruct (time_for p (p_target p) nt0 j); reflexivity.
  Qed.

  Lemma fetch_length {X} (rows : list X) ks : (forall k, In k ks -> k < length rows) -> length (fetch rows ks) = length ks.
  Proof. intros H. induction ks as [|k ks IH]; [reflexivity|]. unfold fetch in *. cbn [flat_map]. rewrite app_length, IH by (intros; apply H; right; auto).
    destruct (nth_error rows k) eqn:E; [reflexivity|]. apply nth_error_None in E. specialize (H k (or_introl eq_refl)). lia. Qed.
  Lemma in_fetch {X} (rows : list X) ks x : In x (fetch rows ks) <-> exists k, In k ks /\ nth_error rows k = Some x.
  Proof. unfold fetch. rewrite in_flat_map. split; intros (k & H1 & H2); exists k; split; auto. - destruct (nth_error rows k); [destruct H2 as [->|[]]; reflexivity|destruct H2]. - rewrite H2. left; reflexivity. Qed.

  Lemma data_ok p total reset s q c nt sf qf cf ntf its : dqn_learn p total reset s q c nt = Some (sf, qf, cf, ntf, its) ->
    let nt0 := if reset then 0 else nt in
    exists rows, dpath (epsilon p total) q nt0 (ereset s) rows /\ length rows = ntf - nt0 /\
      forall t data beta, In (DTrain t data beta) its ->
        length data = p_batch p /\ nt0 < t <= ntf /\
        (forall x, In x data -> exists k, nth_error rows k = Some x /\ k < t - nt0 /\ t - nt0 <= k + p_size p) /\
        (p_prio p = false -> beta = None) /\ (p_prio p = true -> exists b, beta = Some b /\ ((4#10) <= b <= 1)%Q).
  Proof.
    intros H nt0. apply dqn_spec in H. cbv zeta in H. fold nt0 in H. destruct H as (st & rows & outs & P & C & D & -> & ->).
    exists rows. split; [exact P|]. split; [lia|]. intros t data beta Hin.
    pose proof (calls_length _ _ _ _ _ _ C) as Lo. rewrite counts_length in Lo. pose proof (dends_len _ _ _ D) as (L1 & L2).
    assert (Ne : forall l, ~ In (DTrain t data beta) (map DEv l : items)). { intros l Hl. apply in_map_iff in Hl. destruct Hl as (e & E & _). discriminate E. }
    apply in_app_iff in Hin. destruct Hin as [Hin|Hin]; [apply Ne in Hin; destruct Hin|].
    apply in_app_iff in Hin. destruct Hin as [Hin|Hin]; [apply Ne in Hin; destruct Hin|].
    destruct Hin as [Hin|Hin]; [discriminate Hin|]. apply in_app_iff in Hin. destruct Hin as [Hin|Hin]; [|apply Ne in Hin; destruct Hin].
    apply in_flat_map in Hin. destruct Hin as (j & Hj & Hin). apply in_seq in Hj. unfold DQ_Spec.step_log in Hin.
    destruct (nth_error rows j) as [r|] eqn:Er; [|destruct Hin]. destruct (nth_error outs j) as [o|]; [|destruct Hin]. destruct Hin as [Hin|Hin]; [discriminate Hin|].
    apply in_app_iff in Hin. destruct Hin as [Hin|Hin]; [apply Ne in Hin; destruct Hin|]. destruct (_ && _); [destruct Hin|]. unfold DQ_Spec.updates in Hin.
    apply in_app_iff in Hin. destruct Hin as [Hin|Hin]. { destruct (_ && _) in Hin; [|destruct Hin]. destruct Hin as [Hin|[]]; discriminate Hin. }
    apply in_app_iff in Hin. destruct Hin as [Hin|Hin]; [|destruct (time_for p (p_target p) nt0 j); [destruct Hin as [Hin|[]]; discriminate Hin|destruct Hin]].
    destruct (time_for p (p_freq p) nt0 j) eqn:Et; [|destruct Hin]. apply in_app_iff in Hin. destruct Hin as [Hin|[Hin|Hin]]; [apply Ne in Hin; destruct Hin| |apply Ne in Hin; destruct Hin].
    injection Hin as <- <- <-. set (ks := map _ (seq 0 (p_batch p))).
    assert (Rec : forall k, In k ks -> k <= j /\ (p_size p <> 0 -> j < k + p_size p)).
    { intros k Hk. unfold ks in Hk. apply in_map_iff in Hk. destruct Hk as (v & <- & _). split; [apply in_cell_le|].
      intros Hz. unfold in_cell. match goal with |- _ < _ - (?x) mod _ + _ => pose proof (Nat.mod_upper_bound x (p_size p) Hz) end. lia. }
    assert (Hz : p_batch p = 0 \/ p_size p <> 0). { unfold time_for in Et. apply andb_true_iff in Et. destruct Et as (Et & _). apply andb_true_iff in Et. destruct Et as (Et & _). apply Nat.leb_le in Et. lia. }
    split. { rewrite fetch_length; [unfold ks; rewrite map_length, seq_length; reflexivity|]. intros k Hk. apply Rec in Hk. lia. }
    split; [lia|]. split.
    { intros x Hx. apply in_fetch in Hx. destruct Hx as (k & Hk & E). exists k. split; [exact E|].
      destruct Hz as [Hz|Hz]; [unfold ks in Hk; rewrite Hz in Hk; destruct Hk|]. apply Rec in Hk. destruct Hk as (K1 & K2). specialize (K2 Hz). lia. }
    split; [intros ->; reflexivity|]. intros ->. assert (Ht : total <> 0) by lia. unfold linear_value. assert (Nat.eqb total 0 = false) as -> by (apply Nat.eqb_neq; exact Ht).
    eexists. split; [reflexivity|]. cbv zeta. match goal with |- context [qmin ?y 1] => set (x := y) end.
    assert (Hx : (0 <= x)%Q). { unfold x. apply Qle_shift_div_l; [change 0%Q with (inject_Z 0); rewrite <- Zlt_Qlt; lia|]. rewrite Qmult_0_l. change 0%Q with (inject_Z 0). rewrite <- Zle_Qle. lia. }
    unfold qmin. clearbody x. destruct (Qle_bool x 1) eqn:E; [apply Qle_bool_iff in E|]; split; lra.
  Qed.

  Lemma eps_ok p total reset s q c nt sf qf cf ntf its : dqn_learn p total reset s q c nt = Some (sf, qf, cf, ntf, its) ->
    let nt0 := if reset then 0 else nt in
    forall s1 a e, In (DEnv s1 a e) its -> exists j, j < ntf - nt0 /\ e = epsilon p total (nt0 + j).
  Proof.
    intros H nt0 s1 a e Hin. apply dqn_spec in H. cbv zeta in H. fold nt0 in H. destruct H as (st & rows & outs & P & C & D & -> & ->).
    assert (Ne : forall l, ~ In (DEnv s1 a e) (map DEv l : items)). { intros l Hl. apply in_map_iff in Hl. destruct Hl as (x & E & _). discriminate E. }
    apply in_app_iff in Hin. destruct Hin as [Hin|Hin]; [apply Ne in Hin; destruct Hin|].
    apply in_app_iff in Hin. destruct Hin as [Hin|Hin]; [apply Ne in Hin; destruct Hin|].
    destruct Hin as [Hin|Hin]; [discriminate Hin|]. apply in_app_iff in Hin. destruct Hin as [Hin|Hin]; [|apply Ne in Hin; destruct Hin].
    apply in_flat_map in Hin. destruct Hin as (j & Hj & Hin). apply in_seq in Hj. unfold DQ_Spec.step_log in Hin.
    destruct (nth_error rows j) as [r|] eqn:Er; [|destruct Hin]. destruct (nth_error outs j) as [o|]; [|destruct Hin]. destruct Hin as [Hin|Hin].
    { injection Hin as _ _ <-. exists j. split; [lia|reflexivity]. }
    exfalso. apply in_app_iff in Hin. destruct Hin as [Hin|Hin]; [apply Ne in Hin; destruct Hin|]. destruct (_ && _); [destruct Hin|]. unfold DQ_Spec.updates in Hin.
    apply in_app_iff in Hin. destruct Hin as [Hin|Hin]. { destruct (_ && _) in Hin; [|destruct Hin]. destruct Hin as [Hin|[]]; discriminate Hin. }
    apply in_app_iff in Hin. destruct Hin as [Hin|Hin]; [|destruct (time_for p (p_target p) nt0 j); [destruct Hin as [Hin|[]]; discriminate Hin|destruct Hin]].
    destruct (time_for p (p_freq p) nt0 j); [|destruct Hin]. apply in_app_iff in Hin. destruct Hin as [Hin|[Hin|Hin]]; [apply Ne in Hin; destruct Hin|discriminate Hin|apply Ne in Hin; destruct Hin].
  Qed.

  (** Totality. *)
  Lemma gather_total (st : list tr) l : (forall i, In i l -> i < length st) -> exists d, gather st l = Some d.
  Proof. intros H. induction l as [|i l IH]; [eexists; reflexivity|]. cbn [gather]. destruct (nth_error st i) eqn:E; [|apply nth_error_None in E; specialize (H i (or_introl eq_refl)); lia].
    destruct IH as (d & ->); [intros; apply H; right; auto|]. eauto. Qed.
  Lemma steps_total p total k : horizon p total <> 0 -> 1 <= total -> 1 <= p_size p -> 1 <= p_freq p -> 1 <= p_target p -> forall s obs q c nt (b : buf), sound c -> maxsize b = p_size p ->
    exists r, dqn_steps p total k s obs q c nt b = Some r.
  Proof.
    intros Hz Ht Hs Hf Hg. induction k as [|k IH]; intros s obs q c nt b Hc Hb; cbn [DQ_Model.dqn_steps]; [eauto|].
    unfold linear_value at 1. assert (Nat.eqb (horizon p total) 0 = false) as -> by (apply Nat.eqb_neq; exact Hz). cbn [bind].
    destruct (sound_step ans ev c Hc None (nt + 1)) as (c1 & evs & an & -> & Hc1). cbn [bind].
    assert (G : forall eps s1, exists r, (let* b' := add b obs (act q eps obs) (rew s (act q eps obs)) (obs_of (enext s (act q eps obs))) (done_of (enext s (act q eps obs))) in
       let* trn := train_now draws p total b' c1 (nt + 1) in let* tg := target_now p b' (nt + 1) in
       let* z := dqn_steps p total k s1 (obs_of s1) (1 + q) c1 (nt + 1) b' in let '(sf, qf, cf, ntf, its') := z in
       Some (sf, qf, cf, ntf, (DEnv s (act q eps obs) eps :: map DEv evs) ++ (if done_of (enext s (act q eps obs)) && negb vec then [DReset (enext s (act q eps obs))] else []) ++ trn ++ tg ++ its')) = Some r).
    { intros eps s1. unfold add, put. rewrite Hb. destruct (Nat.eqb_spec (p_size p) 0) as [X|_]; [lia|]. cbn [bind].
      match goal with |- context [train_now draws p total ?x c1 _] => set (b' := x) end.
      assert (Lb : 1 <= length (storage b')). { unfold b'. cbn [storage]. destruct (Nat.leb_spec (length (storage b)) (next_idx b)); [rewrite app_length; cbn; lia|rewrite set_nth_length; lia]. }
      assert (T1 : exists t : items, train_now draws p total b' c1 (nt + 1) = Some t).
      { unfold train_now, due. destruct (_ && _); [|cbn; eauto]. destruct (Nat.eqb_spec (p_freq p) 0); [lia|]. cbn [bind]. destruct (_ =? 0); [|eauto].
        destruct (gather_total (storage b') (map (fun i => draws (nt + 1) i mod length (storage b')) (seq 0 (p_batch p)))) as (d & Ed).
        { intros i Hi. apply in_map_iff in Hi. destruct Hi as (v & <- & _). apply Nat.mod_upper_bound. lia. }
        rewrite Ed. destruct (p_prio p); [|cbn; eauto]. unfold linear_value. destruct (Nat.eqb_spec total 0); [lia|]. cbn; eauto. }
      assert (T2 : exists t : items, target_now p b' (nt + 1) = Some t).
      { unfold target_now, due. destruct (_ && _); [|cbn; eauto]. destruct (Nat.eqb_spec (p_target p) 0); [lia|]. cbn; eauto. }
      destruct T1 as (t1 & ->). destruct T2 as (t2 & ->). cbn [bind]. destruct (IH s1 (obs_of s1) (1 + q) c1 (nt + 1) b' Hc1 eq_refl) as ([[[[? ?] ?] ?] ?] & ->). cbn [bind]. eauto. }
    destruct an; [apply G|eauto|apply G].
  Qed.
  Lemma dqn_total p total reset s q c nt : total = 0 \/ horizon p total <> 0 -> 1 <= p_size p -> 1 <= p_freq p -> 1 <= p_target p -> sound c -> exists r, dqn_learn p total reset s q c nt = Some r.
  Proof.
    intros Hz Hs Hf Hg Hc. unfold DQ_Model.dqn_learn. destruct (Nat.eq_dec total 0) as [->|Ht]; [cbn; eauto|]. destruct Hz as [?|Hz]; [lia|].
    match goal with |- context [dqn_steps p total total ?x ?o q c ?n ?b] => destruct (steps_total p total total Hz ltac:(lia) Hs Hf Hg x o q c n b Hc eq_refl) as ([[[[? ?] ?] ?] ?] & ->) end. cbn [bind]. eauto.
  Qed.
  Lemma dqn_raises p total reset s q c nt : 1 <= total -> horizon p total = 0 -> dqn_learn p total reset s q c nt = None.
  Proof. intros Ht Hz. unfold DQ_Model.dqn_learn. destruct total as [|k]; [lia|]. cbn [DQ_Model.dqn_steps]. unfold linear_value. rewrite Hz. reflexivity. Qed.

  Lemma dqn_idle p total reset s q c nt sf qf cf ntf its : dqn_learn p total reset s q c nt = Some (sf, qf, cf, ntf, its) ->
    p_size p < p_batch p \/ total < p_batch p \/ (if reset then 0 else nt) + total <= p_starts p -> train_times its = [] /\ target_times its = [].
  Proof.
    intros H Hd. apply train_times_ok in H. cbv zeta in H. destruct H as (m & L & Hm & -> & ->).
    assert (G : forall f, filter (time_for p f (if reset then 0 else nt)) (seq 0 m) = []).
    { intros f. assert (X : forall j, In j (seq 0 m) -> time_for p f (if reset then 0 else nt) j = false).
      { intros j Hj. apply in_seq in Hj. unfold time_for. destruct Hd as [Hd|[Hd|Hd]].
        - assert (p_batch p <=? min (1 + j) (p_size p) = false) as -> by (apply Nat.leb_gt; lia). reflexivity.
        - assert (p_batch p <=? min (1 + j) (p_size p) = false) as -> by (apply Nat.leb_gt; lia). reflexivity.
        - match goal with |- _ && ?x && _ = _ => assert (x = false) as -> by (apply Nat.ltb_ge; lia) end. rewrite andb_false_r. reflexivity. }
      revert X. generalize (seq 0 m). induction l as [|x l IH]; intros X; [reflexivity|]. cbn [filter]. rewrite (X x) by (left; reflexivity). apply IH. intros; apply X; right; auto. }
    rewrite !G. split; reflexivity.
  Qed.

  (** Rollout signals. *)
  Lemma count_fm {X Y} (g : Y -> bool) (f : X -> list Y) l : length (filter g (flat_map f l)) = fold_right (fun x n => length (filter g (f x)) + n) 0 l.
  Proof. induction l as [|x l IH]; [reflexivity|]. cbn [flat_map fold_right]. rewrite filter_app, app_length, IH. reflexivity. Qed.
  Lemma signals_ok p total reset s q id n nt sf qf cf ntf its : dqn_learn p total reset s q (User id n) nt = Some (sf, qf, cf, ntf, its) ->
    length (filter (is_signal id RolloutEnd) its) = length (train_times its) /\ length (filter (is_signal id RolloutStart) its) = 1 + length (train_times its).
  Proof.
    intros H. pose proof H as H0. apply dqn_spec in H0. cbv zeta in H0. set (nt0 := if reset then 0 else nt) in *. destruct H0 as (st & rows & outs & P & C & D & -> & ->).
    pose proof (calls_no_signal _ _ _ _ _ _ C) as Ns. clear H C P D. cbn [notify map].
    assert (F : forall h, length (filter h (flat_map (step_log p total draws (User id n) nt0 (ereset s) st rows outs) (seq 0 (length rows)))) =
      fold_right (fun j n0 => length (filter h (step_log p total draws (User id n) nt0 (ereset s) st rows outs j)) + n0) 0 (seq 0 (length rows))) by (intros h; apply count_fm).
    rewrite !filter_app. cbn [filter is_signal]. rewrite Nat.eqb_refl. cbn [andb]. rewrite !filter_app. cbn [filter is_signal andb]. rewrite Nat.eqb_refl. cbn [andb app length]. rewrite !app_nil_r, !F.
    unfold train_times. cbn [app flat_map]. rewrite flat_map_app. cbn [flat_map]. rewrite app_nil_r.
    assert (K : forall j, length (filter (is_signal id RolloutEnd) (step_log p total draws (User id n) nt0 (ereset s) st rows outs j)) = length (train_times (step_log p total draws (User id n) nt0 (ereset s) st rows outs j)) /\
      length (filter (is_signal id RolloutStart) (step_log p total draws (User id n) nt0 (ereset s) st rows outs j)) = length (train_times (step_log p total draws (User id n) nt0 (ereset s) st rows outs j))).
    { intros j. unfold DQ_Spec.step_log. destruct (nth_error rows j) as [r|]; [|split; reflexivity]. destruct (nth_error outs j) as [o|] eqn:Eo; [|split; reflexivity].
      apply nth_error_In in Eo. rewrite Forall_forall in Ns. specialize (Ns o Eo). cbn [filter is_signal train_times flat_map app]. rewrite !filter_app. fold (@train_times St O A).
      assert (Q1 : forall sg, filter (is_signal id sg) (map DEv (fst o) : items) = []).
      { intros sg. induction Ns as [|e l He Hl IHl]; [reflexivity|]. cbn [map filter]. destruct e; try destruct He; exact IHl. }
      rewrite !Q1. cbn [app]. unfold train_times. rewrite flat_map_app, fm_map, fm_nil by reflexivity. cbn [app].
      destruct (_ && _); [split; reflexivity|]. unfold DQ_Spec.updates. rewrite !filter_app, !flat_map_app, !app_length.
      destruct (done_of _ && negb vec); destruct (time_for p (p_freq p) nt0 j); destruct (time_for p (p_target p) nt0 j); cbn; rewrite ?Nat.eqb_refl; cbn; split; reflexivity. }
    rewrite fm_fm. assert (L : forall l, length (flat_map (fun x => flat_map (fun i : ditem St O A => match i with DTrain t _ _ => [t] | _ => [] end) (step_log p total draws (User id n) nt0 (ereset s) st rows outs x)) l) =
      fold_right (fun j m => length (train_times (step_log p total draws (User id n) nt0 (ereset s) st rows outs j)) + m) 0 l).
    { induction l as [|x l IH]; [reflexivity|]. cbn [flat_map fold_right]. rewrite app_length, IH. reflexivity. }
    rewrite L. generalize (seq 0 (length rows)). intros l. induction l as [|j l (I1 & I2)]; [split; reflexivity|]. cbn [fold_right]. destruct (K j) as (K1 & K2). rewrite K1, K2. split; [rewrite I1; reflexivity|lia].
  Qed.
End D.

Lemma horizon_floor p total : (0 <= p_frac p)%Q ->
  (inject_Z (Z.of_nat (horizon p total)) <= p_frac p * inject_Z (Z.of_nat total) < inject_Z (Z.of_nat (horizon p total)) + 1)%Q.
Proof.
  intros F. unfold horizon. set (x := (p_frac p * inject_Z (Z.of_nat total))%Q).
  assert (X : (0 <= x)%Q). { unfold x. apply Qmult_le_0_compat; [exact F|]. change 0%Q with (inject_Z 0). rewrite <- Zle_Qle. lia. }
  assert (Z0 : (0 <= Qfloor x)%Z). { change 0%Z with (Qfloor 0). apply Qfloor_resp_le. exact X. }
  rewrite Z2Nat.id by exact Z0. split; [apply Qfloor_le|]. pose proof (Qlt_floor x) as L. rewrite inject_Z_plus in L. exact L.
Qed.
