(** What a run of FNEAT or RNEAT returns (C79). *)
From Coq Require Import List Arith ZArith QArith Bool Lia Lqa.
From Verif Require Import Base BaseFacts Space_Model Opt_Model Opt_Spec Opt_Facts Opt_Facts2 Env_Model NE_Model NE_Spec.
Import ListNotations.
Open Scope nat_scope.

Definition track (b : option (Q * list val)) (r : eresult) : option (Q * list val) := if improves (r_reward r) (option_map fst b) then Some (r_reward r, r_x r) else b.
Definition local (l : option Q) (r : eresult) : option Q := Some (match l with Some l => if Qltb l (r_reward r) then r_reward r else l | None => r_reward r end).

Lemma track_max l : l <> [] -> exists r, In r l /\ fold_left track l None = Some (r_reward r, r_x r) /\ Forall (fun r' => (r_reward r' <= r_reward r)%Q) l.
Proof.
  induction l as [|r l IH] using rev_ind; [congruence|]. intros _. rewrite fold_left_app. cbn [fold_left]. destruct l as [|r1 l].
  - exists r. cbn. repeat split; auto. constructor; auto. lra.
  - destruct IH as (m & H1 & H2 & H3); [discriminate|]. rewrite H2. unfold track. cbn [option_map fst improves]. destruct (Qltb (r_reward m) (r_reward r)) eqn:E.
    + apply Qltb_lt in E. exists r. split; [apply in_app_iff; right; left; reflexivity|]. split; [reflexivity|]. apply Forall_app. split; [|constructor; [lra|constructor]].
      eapply Forall_impl; [|exact H3]. cbn. intros a Ha. lra.
    + apply Qltb_false in E. exists m. split; [apply in_app_iff; left; exact H1|]. split; [reflexivity|]. apply Forall_app. split; [exact H3|]. constructor; [exact E|constructor].
Qed.
Lemma local_max l : l <> [] -> exists r, In r l /\ fold_left local l None = Some (r_reward r) /\ Forall (fun r' => (r_reward r' <= r_reward r)%Q) l.
Proof.
  induction l as [|r l IH] using rev_ind; [congruence|]. intros _. rewrite fold_left_app. cbn [fold_left]. destruct l as [|r1 l].
  - exists r. cbn. repeat split; auto. constructor; auto. lra.
  - destruct IH as (m & H1 & H2 & H3); [discriminate|]. rewrite H2. unfold local. destruct (Qltb (r_reward m) (r_reward r)) eqn:E.
    + apply Qltb_lt in E. exists r. split; [apply in_app_iff; right; left; reflexivity|]. split; [reflexivity|]. apply Forall_app. split; [|constructor; [lra|constructor]].
      eapply Forall_impl; [|exact H3]. cbn. intros a Ha. lra.
    + apply Qltb_false in E. exists m. split; [apply in_app_iff; left; exact H1|]. split; [reflexivity|]. apply Forall_app. split; [exact H3|]. constructor; [exact E|constructor].
Qed.

Section P.
  Context {G N : Type} (net_new : G -> N) (activate : N -> list Q -> N * list Q) (lib : list (list Q) -> option (list G))
          (fit : list val -> Q) (act_sample : nat -> action) (obs_sample : nat -> list Q) (randint : nat -> Z -> Z -> Z) (c : econf)
          (sp : aspace) (x0 : option (list Q)).
  Notation step := (env_step fit obs_sample randint c).
  Notation played := (played activate fit obs_sample randint c sp).
  Notation episode := (episode net_new activate fit act_sample obs_sample randint c sp x0).
  Notation episodes := (episodes net_new activate fit act_sample obs_sample randint c sp x0).
  Notation copies := (copies net_new activate fit act_sample obs_sample randint c sp x0).
  Notation serial_loop := (serial_loop activate fit obs_sample randint c sp).
  Notation worker_loop := (worker_loop activate fit obs_sample randint c sp).
  Notation eval_serial := (eval_serial net_new activate fit act_sample obs_sample randint c sp x0).
  Notation eval_parallel := (eval_parallel net_new activate fit act_sample obs_sample randint c sp x0).
  Notation neat_evolute := (neat_evolute net_new activate lib fit act_sample obs_sample randint c sp x0).
  Notation m := (ec_mode c).

  Definition right_reward (r : eresult) : Prop := r_reward r = as_max m (fit (r_x r)).
  Lemma step_reward sp' st a r st' : step sp' st a = Some (r, st') -> right_reward r.
  Proof.
    unfold env_step. intros H. apply bind_Some in H. destruct H as (mp & _ & H). apply bind_Some in H. destruct H as (x & _ & H). injection H as <- _. reflexivity.
  Qed.
  Lemma played_right rs : forall n ob st st', played n ob st rs st' -> Forall right_reward rs.
  Proof.
    induction rs as [|r rs IH]; intros n ob st st' H; [constructor|]. cbn in H. destruct H as (a & st1 & _ & H2 & H3). constructor; [eapply step_reward; eauto|eapply IH; eauto].
  Qed.

  Lemma step_clock st a r st' : step sp st a = Some (r, st') -> r_done r = n_done st' /\
    (if S (n_counter st) =? ec_len c then n_done st' = true /\ n_counter st' = 0 else n_done st' = n_done st /\ n_counter st' = S (n_counter st)).
  Proof.
    unfold env_step. intros H. apply bind_Some in H. destruct H as ([v st1] & E & H). apply bind_Some in H. destruct H as (x & _ & H). cbn [snd fst] in H.
    assert (K : n_done st1 = n_done st /\ n_counter st1 = n_counter st).
    { unfold env_map in E. destruct (ec_meth c); [|destruct sp, a; try discriminate E|discriminate E].
      - apply bind_Some in E. destruct E as (w & _ & E). injection E as _ <-. auto.
      - apply bind_Some in E. destruct E as (st2 & E1 & E). injection E as _ <-. unfold one_action in E1. destruct (_ <? _).
        + apply bind_Some in E1. destruct E1 as (z & _ & E1). apply bind_Some in E1. destruct E1 as (d & _ & E1). injection E1 as <-. auto.
        + injection E1 as <-. auto. }
    destruct K as (K1 & K2). rewrite K2 in H. destruct (S (n_counter st) =? ec_len c); injection H as <- <-; auto.
  Qed.

  Lemma serial_spec fuel : forall n ob st loc cnt best rew loc' best' st' log, n_counter st < ec_len c -> (loc = None /\ cnt = 0 \/ n_done st = true \/ cnt < n_counter st) -> serial_loop fuel n ob st loc cnt best = Some (rew, loc', best', st', log) ->
    exists rs r, played n ob st (rs ++ [r]) st' /\ log = map r_x (rs ++ [r]) /\ rew = r_reward r /\ Some loc' = fold_left local (rs ++ [r]) loc /\ best' = fold_left track (rs ++ [r]) best /\
      Forall (fun r => r_done r = false) rs /\ r_done r = true /\ n_counter st' < ec_len c.
  Proof.
    induction fuel as [|fuel IH]; intros n ob st loc cnt best rew loc' best' st' log Hc Hi H; cbn [NE_Model.serial_loop] in H; [discriminate H|].
    destruct (net_action sp (snd (activate n ob))) as [a|] eqn:Ea; [|discriminate H]. cbn [bind] in H. destruct (step sp st a) as [[r st1]|] eqn:Es; [|discriminate H]. cbn [bind] in H.
    destruct (step_clock _ _ _ _ Es) as (K1 & K2).
    match type of H with context [_ || (?k =? _)] => set (cnt' := k) in * end.
    assert (Hcnt : r_done r = false -> cnt' < n_counter st1).
    { intros Hd. rewrite K1 in Hd. destruct (Nat.eqb_spec (S (n_counter st)) (ec_len c)); [destruct K2; congruence|]. destruct K2 as (K2 & K3). rewrite K3. unfold cnt'.
      destruct Hi as [(-> & ->)|[Hi|Hi]]; [cbn; lia|congruence|]. destruct (improves _ _); lia. }
    assert (Hc' : n_counter st1 < ec_len c). { destruct (Nat.eqb_spec (S (n_counter st)) (ec_len c)); lia. }
    destruct (r_done r) eqn:Ed; cbn [orb] in H.
    - injection H as <- <- <- <- <-. exists [], r. cbn [app]. split; [cbn; eauto|]. repeat split; auto.
    - specialize (Hcnt eq_refl). destruct (Nat.eqb_spec cnt' (ec_len c)) as [Z|Z]; [lia|]. apply bind_Some in H. destruct H as ([[[[rew2 loc2] best2] st2] log2] & E & H). injection H as <- <- <- <- <-. apply IH in E; auto. destruct E as (rs & r2 & P & -> & -> & L & -> & D1 & D2 & D3).
      exists (r :: rs), r2. cbn [app]. split; [cbn; eauto|]. repeat split; auto.
  Qed.
  Lemma worker_spec fuel : forall n ob st loc rew loc' x log, worker_loop fuel n ob st loc = Some (rew, loc', x, log) ->
    exists rs r st', played n ob st (rs ++ [r]) st' /\ log = map r_x (rs ++ [r]) /\ rew = r_reward r /\ x = r_x r /\ Some loc' = fold_left local (rs ++ [r]) loc /\ Forall (fun r => r_done r = false) rs /\ r_done r = true.
  Proof.
    induction fuel as [|fuel IH]; intros n ob st loc rew loc' x log H; cbn [NE_Model.worker_loop] in H; [discriminate H|].
    destruct (net_action sp (snd (activate n ob))) as [a|] eqn:Ea; [|discriminate H]. cbn [bind] in H. destruct (step sp st a) as [[r st1]|] eqn:Es; [|discriminate H]. cbn [bind] in H.
    destruct (r_done r) eqn:Ed.
    - injection H as <- <- <- <-. exists [], r, st1. cbn [app]. split; [cbn; eauto|]. repeat split; auto.
    - apply bind_Some in H. destruct H as ([[[rew2 loc2] x2] log2] & E & H). injection H as <- <- <- <-. apply IH in E. destruct E as (rs & r2 & st2 & P & -> & -> & -> & L & D1 & D2).
      exists (r :: rs), r2, st2. cbn [app]. split; [cbn; eauto|]. repeat split; auto.
  Qed.

  (** The history after the episodes [eps]; [pick] says which results the tracked best has seen. *)
  Section H.
    Context (pick : list eresult -> list eresult).
    Definition inv (eps : list (list eresult)) (s : search) : Prop :=
      s_best s = fold_left track (concat (map pick eps)) None /\ hist_ok m fit pick eps (s_global s) (s_local s).

    Lemma top_track l : l <> [] -> Forall right_reward l -> exists b, fold_left track l None = Some b /\ top m (values_of fit l) (as_max m (fst b)).
    Proof.
      intros Hl Hr. destruct (track_max l Hl) as (r & H1 & H2 & H3). exists (r_reward r, r_x r). split; [exact H2|]. cbn [fst].
      rewrite Forall_forall in Hr. pose proof (Hr r H1) as Er. unfold right_reward in Er. split.
      - exists (fit (r_x r)). split; [unfold values_of; apply in_map_iff; exists r; auto|]. rewrite Er. apply as_max_invol.
      - unfold values_of. apply Forall_map. rewrite Forall_forall in H3 |- *. intros r' Hr'. apply as_max_good. rewrite as_max_invol. rewrite <- (Hr r' Hr'). apply H3; auto.
    Qed.
    Lemma top_local l : l <> [] -> Forall right_reward l -> exists b, fold_left local l None = Some b /\ top m (values_of fit l) (as_max m b).
    Proof.
      intros Hl Hr. destruct (local_max l Hl) as (r & H1 & H2 & H3). exists (r_reward r). split; [exact H2|].
      rewrite Forall_forall in Hr. pose proof (Hr r H1) as Er. unfold right_reward in Er. split.
      - exists (fit (r_x r)). split; [unfold values_of; apply in_map_iff; exists r; auto|]. rewrite Er. apply as_max_invol.
      - unfold values_of. apply Forall_map. rewrite Forall_forall in H3 |- *. intros r' Hr'. apply as_max_good. rewrite as_max_invol. rewrite <- (Hr r' Hr'). apply H3; auto.
    Qed.

    Lemma inv_snoc eps s e loc : inv eps s -> Forall right_reward (concat (map pick (eps ++ [e]))) -> Forall right_reward e -> e <> [] -> pick e <> [] -> Some loc = fold_left local e None ->
      inv (eps ++ [e]) (note c s (fold_left track (pick e) (s_best s)) loc).
    Proof.
      intros (I1 & I2 & I3 & I4) R Re He Hp Hl.
      assert (B : fold_left track (pick e) (s_best s) = fold_left track (concat (map pick (eps ++ [e]))) None).
      { rewrite I1, map_app, concat_app, fold_left_app. cbn [map concat]. rewrite app_nil_r. reflexivity. }
      destruct (top_track (concat (map pick (eps ++ [e])))) as (b & Eb & Tb); auto. { rewrite map_app, concat_app. cbn. rewrite app_nil_r. intros E. apply app_eq_nil in E. tauto. }
      destruct (top_local e He Re) as (lb & El & Tl). rewrite El in Hl. injection Hl as ->.
      split; [exact B|]. unfold note. cbn [s_global s_local]. rewrite B, Eb. unfold hist_ok. rewrite !app_length, I2, I3. cbn [length]. split; [reflexivity|]. split; [reflexivity|].
      intros k f Hk. destruct (lt_dec k (length eps)) as [L|L].
      - rewrite nth_error_app1 in Hk by exact L. destruct (I4 k f Hk) as ((a & A1 & A2) & (d & D1 & D2)). split.
        + exists a. split; [rewrite nth_error_app1 by lia; exact A1|]. rewrite firstn_app. replace (S k - length eps) with 0 by lia. cbn [firstn]. rewrite app_nil_r. exact A2.
        + exists d. split; [rewrite nth_error_app1 by lia; exact D1|exact D2].
      - assert (k = length eps). { assert (k < length (eps ++ [e])) by (apply nth_error_Some; congruence). rewrite app_length in H. cbn in H. lia. } subst k.
        rewrite nth_error_app2, Nat.sub_diag in Hk by lia. injection Hk as <-. split.
        + exists (as_max m (fst b)). split; [rewrite nth_error_app2, I2, Nat.sub_diag by lia; reflexivity|]. rewrite firstn_all2 by (rewrite app_length; cbn; lia). exact Tb.
        + exists (as_max m lb). split; [rewrite nth_error_app2, I3, Nat.sub_diag by lia; reflexivity|exact Tl].
    Qed.
  End H.

  Lemma last_snoc rs r : last_of (rs ++ [r]) = [r].
  Proof. unfold last_of. rewrite rev_unit. reflexivity. Qed.

  Lemma eval_serial_spec fuel gs : forall st s fs st' s' log done, n_counter st < ec_len c -> eval_serial fuel gs st s = Some (fs, st', s', log) ->
    inv all_of done s -> Forall right_reward (concat done) ->
    exists eps, (episodes gs st eps st' /\ n_counter st' < ec_len c) /\ log = concat (map (map r_x) eps) /\ inv all_of (done ++ eps) s' /\ Forall right_reward (concat (done ++ eps)) /\ Forall2 last_reward fs eps /\ length fs = length gs.
  Proof.
    induction gs as [|g gs IH]; intros st s fs st' s' log done Hc H Iv R; cbn [NE_Model.eval_serial] in H.
    - injection H as <- <- <- <-. exists []. rewrite app_nil_r. split; [split; [reflexivity|exact Hc]|]. do 2 (split; [auto; reflexivity|]). split; [exact R|]. split; [constructor|reflexivity].
    - apply bind_Some in H. destruct H as (f & Ef & H). apply bind_Some in H. destruct H as ([[[[rew loc] best] st1] log1] & E & H). apply bind_Some in H. destruct H as ([[[fs2 st2] s2] log2] & E2 & H).
      injection H as <- <- <- <-.
      assert (Hf : n_counter (snd f) = n_counter st). { unfold first_input in Ef. destruct x0; [injection Ef as <-; reflexivity|]. apply bind_Some in Ef. destruct Ef as (q & Eq & Ef). injection Ef as <-. cbn [snd]. unfold env_reset in Eq. destruct (ec_meth c); try discriminate Eq; injection Eq as <-; reflexivity. }
      apply serial_spec in E; [|lia|left; auto]. destruct E as (rs & r & P & -> & -> & L & -> & D1 & D2 & D3).
      pose proof (played_right _ _ _ _ _ P) as Rr.
      apply (IH _ _ _ _ _ _ (done ++ [rs ++ [r]])) in E2.
      + destruct E2 as (eps & (E1 & Hc2) & -> & I2 & R2 & F2 & L2). exists ((rs ++ [r]) :: eps). rewrite <- app_assoc in I2, R2. cbn [app] in I2, R2. split.
        { split; [|exact Hc2]. cbn. exists st1. split; [|exact E1]. exists f. split; [exact Ef|]. split; [exact P|]. exists rs, r. auto. }
        split; [reflexivity|]. split; [exact I2|]. split; [exact R2|]. split; [|cbn; lia]. constructor; [exists r; split; [apply last_snoc|reflexivity]|exact F2].
      + exact D3.
      + apply (inv_snoc all_of); auto.
        * rewrite (map_id (done ++ [rs ++ [r]]) : map all_of _ = _), concat_app. cbn. rewrite app_nil_r. apply Forall_app. split; auto.
        * destruct rs; discriminate.
        * destruct rs; discriminate.
      + rewrite concat_app. cbn. rewrite app_nil_r. apply Forall_app. split; auto.
  Qed.
  Lemma last_right rs : Forall right_reward rs -> Forall right_reward (last_of rs).
  Proof.
    intros H. unfold last_of. destruct (rev rs) as [|r l] eqn:E; [constructor|]. constructor; [|constructor]. rewrite Forall_forall in H. apply H. apply in_rev. rewrite E. left; reflexivity.
  Qed.
  Lemma eval_parallel_spec fuel gs : forall st s fs st' s' log done, eval_parallel fuel gs st s = Some (fs, st', s', log) ->
    inv last_of done s -> Forall right_reward (concat done) ->
    exists eps, copies gs st eps /\ st' = st /\ log = concat (map (map r_x) eps) /\ inv last_of (done ++ eps) s' /\ Forall right_reward (concat (done ++ eps)) /\ Forall2 last_reward fs eps /\ length fs = length gs.
  Proof.
    induction gs as [|g gs IH]; intros st s fs st' s' log done H Iv R; cbn [NE_Model.eval_parallel] in H.
    - injection H as <- <- <- <-. exists []. rewrite app_nil_r. split; [constructor|]. do 3 (split; [auto; reflexivity|]). split; [exact R|]. split; [constructor|reflexivity].
    - apply bind_Some in H. destruct H as (f & Ef & H). apply bind_Some in H. destruct H as ([[[rew loc] x] log1] & E & H). apply bind_Some in H. destruct H as ([[[fs2 st2] s2] log2] & E2 & H).
      injection H as <- <- <- <-. apply worker_spec in E. destruct E as (rs & r & st1 & P & -> & -> & -> & L & D1 & D2).
      pose proof (played_right _ _ _ _ _ P) as Rr.
      assert (Ra : Forall right_reward (concat (done ++ [rs ++ [r]]))). { rewrite concat_app. cbn. rewrite app_nil_r. apply Forall_app. split; auto. }
      apply (IH _ _ _ _ _ _ (done ++ [rs ++ [r]])) in E2; auto.
      + destruct E2 as (eps & E1 & -> & -> & I2 & R2 & F2 & L2). exists ((rs ++ [r]) :: eps). rewrite <- app_assoc in I2, R2. cbn [app] in I2, R2. split.
        { constructor; [|exact E1]. exists st1. exists f. split; [exact Ef|]. split; [exact P|]. exists rs, r. auto. }
        split; [reflexivity|]. split; [reflexivity|]. split; [exact I2|]. split; [exact R2|]. split; [|cbn; lia]. constructor; [exists r; split; [apply last_snoc|reflexivity]|exact F2].
      + pose proof (inv_snoc last_of done s (rs ++ [r]) loc Iv) as K. rewrite last_snoc in K. apply K; auto.
        * clear - Ra. induction (done ++ [rs ++ [r]]) as [|e l IHl]; [constructor|]. cbn [map concat] in *. apply Forall_app in Ra. destruct Ra as (R1 & R2). apply Forall_app. split; [apply last_right; exact R1|apply IHl; exact R2].
        * destruct rs; discriminate.
        * discriminate.
  Qed.

  (** Generations. *)
  Lemma gens_spec (chain : list G -> estate -> list (list eresult) -> estate -> Prop) (ok : estate -> Prop) (pick : list eresult -> list eresult) eval :
    (forall st, chain [] st [] st) -> (forall g1 g2 st e1 st1 e2 st2, chain g1 st e1 st1 -> chain g2 st1 e2 st2 -> chain (g1 ++ g2) st (e1 ++ e2) st2) ->
    (forall gs st s fs st' s' log done, ok st -> eval gs st s = Some (fs, st', s', log) -> inv pick done s -> Forall right_reward (concat done) ->
       exists eps, (chain gs st eps st' /\ ok st') /\ log = concat (map (map r_x) eps) /\ inv pick (done ++ eps) s' /\ Forall right_reward (concat (done ++ eps)) /\ Forall2 last_reward fs eps /\ length fs = length gs) ->
    forall k past st s past' st' s' log done, ok st -> generations lib eval k past st s = Some (past', st', s', log) -> inv pick done s -> Forall right_reward (concat done) ->
    exists gens fits eps, past' = past ++ fits /\ given lib past gens fits /\ length gens <= k /\ (chain (concat gens) st eps st' /\ ok st') /\ log = concat (map (map r_x) eps) /\
      inv pick (done ++ eps) s' /\ Forall right_reward (concat (done ++ eps)) /\ Forall2 last_reward (concat fits) eps.
  Proof.
    intros C0 Capp Hev. induction k as [|k IH]; intros past st s past' st' s' log done Hok H Iv R; cbn [generations] in H.
    - injection H as <- <- <- <-. exists [], [], []. rewrite !app_nil_r. split; [reflexivity|]. split; [exact I|]. split; [cbn; lia|]. split; [split; [apply C0|exact Hok]|]. split; [reflexivity|]. split; [exact Iv|]. split; [exact R|constructor].
    - destruct (lib past) as [gs|] eqn:El.
      2:{ injection H as <- <- <- <-. exists [], [], []. rewrite !app_nil_r. split; [reflexivity|]. split; [exact I|]. split; [cbn; lia|]. split; [split; [apply C0|exact Hok]|]. split; [reflexivity|]. split; [exact Iv|]. split; [exact R|constructor]. }
      apply bind_Some in H. destruct H as ([[[fs st1] s1] log1] & E & H). apply bind_Some in H. destruct H as ([[[past2 st2] s2] log2] & E2 & H). injection H as <- <- <- <-.
      apply (Hev _ _ _ _ _ _ _ done) in E; auto. destruct E as (eps & (Ch & Hok1) & -> & I1 & R1 & F1 & L1).
      apply (IH _ _ _ _ _ _ _ (done ++ eps)) in E2; auto. destruct E2 as (gens & fits & eps2 & -> & Gv & Lk & (Ch2 & Hok2) & -> & I2 & R2 & F2).
      exists (gs :: gens), (fs :: fits), (eps ++ eps2). rewrite <- app_assoc. cbn [app]. split; [reflexivity|]. split; [cbn; auto|]. split; [cbn; lia|]. split; [split; [cbn [concat]; eapply Capp; eauto|exact Hok2]|].
      rewrite map_app, concat_app. split; [reflexivity|]. rewrite app_assoc. split; [exact I2|]. split; [exact R2|]. cbn [concat]. apply Forall2_app; auto.
  Qed.
  Lemma episodes_app g1 : forall g2 st e1 st1 e2 st2, episodes g1 st e1 st1 -> episodes g2 st1 e2 st2 -> episodes (g1 ++ g2) st (e1 ++ e2) st2.
  Proof.
    induction g1 as [|g g1 IH]; intros g2 st e1 st1 e2 st2 H1 H2; destruct e1 as [|e e1]; cbn in H1; try contradiction.
    - subst st1. exact H2.
    - destruct H1 as (st0 & A & B). cbn. exists st0. split; auto. eapply IH; eauto.
  Qed.

  Lemma best_fact pick eps s b : inv pick eps s -> s_best s = Some b -> Forall right_reward (concat (map pick eps)) ->
    best_of m fit (map r_x (concat (map pick eps))) (snd b) (as_max m (fst b)).
  Proof.
    intros (I1 & _) E R. rewrite I1 in E. destruct (track_max (concat (map pick eps))) as (r & H1 & H2 & H3). { intros Z. rewrite Z in E. discriminate E. }
    rewrite H2 in E. injection E as <-. cbn [fst snd]. rewrite Forall_forall in R. split; [apply in_map_iff; exists r; auto|]. rewrite (R r H1). split; [apply as_max_invol|].
    intros z Hz. apply in_map_iff in Hz. destruct Hz as (r' & <- & Hr'). apply as_max_good. rewrite as_max_invol. rewrite <- (R r' Hr'), <- (R r H1). rewrite Forall_forall in H3. apply H3; auto.
  Qed.

  Lemma serial_run fuel ngen st x y gl lo fits st' log : n_counter st < ec_len c -> neat_evolute false fuel ngen st = Some (x, y, gl, lo, fits, st', log) ->
    exists gens eps, given lib [] gens fits /\ length gens <= ngen /\ episodes (concat gens) st eps st' /\ n_counter st' < ec_len c /\
      log = concat (map (map r_x) eps) /\ best_of m fit log x y /\ hist_ok m fit all_of eps gl lo /\ Forall2 last_reward (concat fits) eps.
  Proof.
    unfold NE_Model.neat_evolute. destruct (match x0 with Some x => _ | None => false end); [intros _; discriminate|]. intros Hc H.
    apply bind_Some in H. destruct H as ([[[fits1 st1] s] log1] & E & H). apply bind_Some in H. destruct H as (b & Eb & H). injection H as <- <- <- <- <- <- <-.
    apply (gens_spec episodes (fun st => n_counter st < ec_len c) all_of) with (done := []) in E; try (constructor; fail); auto.
    - destruct E as (gens & fits2 & eps & -> & Gv & Lk & (Ch & Hc') & -> & I2 & R2 & F2). cbn [app] in *. exists gens, eps. split; [exact Gv|]. split; [exact Lk|]. split; [exact Ch|]. split; [exact Hc'|]. split; [reflexivity|]. split.
      { pose proof (best_fact _ _ _ _ I2 Eb) as K. rewrite (map_id eps : map all_of _ = _) in K. specialize (K R2). rewrite concat_map in K. exact K. }
      split; [apply I2|exact F2].
    - exact episodes_app.
    - intros. eapply eval_serial_spec; eauto.
    - split; [reflexivity|]. split; [reflexivity|]. split; [reflexivity|]. intros [|k] e Hk; discriminate Hk.
  Qed.
  Lemma parallel_run fuel ngen st x y gl lo fits st' log : neat_evolute true fuel ngen st = Some (x, y, gl, lo, fits, st', log) ->
    exists gens eps, given lib [] gens fits /\ length gens <= ngen /\ copies (concat gens) st eps /\ st' = st /\
      log = concat (map (map r_x) eps) /\ best_of m fit (map r_x (concat (map last_of eps))) x y /\ hist_ok m fit last_of eps gl lo /\ Forall2 last_reward (concat fits) eps.
  Proof.
    unfold NE_Model.neat_evolute. destruct (match x0 with Some x => _ | None => false end); [discriminate|]. intros H.
    apply bind_Some in H. destruct H as ([[[fits1 st1] s] log1] & E & H). apply bind_Some in H. destruct H as (b & Eb & H). injection H as <- <- <- <- <- <- <-.
    apply (gens_spec (fun gs st eps st' => copies gs st eps /\ st' = st) (fun _ => True) last_of) with (done := []) in E; try (constructor; fail); auto.
    - destruct E as (gens & fits2 & eps & -> & Gv & Lk & ((Ch & ->) & _) & -> & I2 & R2 & F2). cbn [app] in *. exists gens, eps. split; [exact Gv|]. split; [exact Lk|]. split; [exact Ch|]. split; [reflexivity|]. split; [reflexivity|]. split.
      { apply (best_fact _ _ _ _ I2 Eb). clear - R2. induction eps as [|e l IHl]; [constructor|]. cbn [map concat] in *. apply Forall_app in R2. destruct R2 as (Ra & Rb). apply Forall_app. split; [apply last_right; exact Ra|apply IHl; exact Rb]. }
      split; [apply I2|exact F2].
    - intros st0. split; [constructor|reflexivity].
    - intros g1 g2 s0 e1 s1 e2 s2 (A & ->) (B & ->). split; [apply Forall2_app; auto|reflexivity].
    - intros gs s0 s1 fs s0' s1' lg done _ Ev Iv R. apply (eval_parallel_spec _ _ _ _ _ _ _ _ done) in Ev; auto. destruct Ev as (eps & A & B & C & D). exists eps. tauto.
    - split; [reflexivity|]. split; [reflexivity|]. split; [reflexivity|]. intros [|k] e Hk; discriminate Hk.
  Qed.
End P.
