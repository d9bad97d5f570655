(** How long the episodes of FNEAT and RNEAT are, what they evaluate, when a run ends well (C79). *)
From Coq Require Import List Arith ZArith QArith Qround Bool Lia Lqa.
From Verif Require Import Base Space_Model Space_Spec Opt_Model Opt_Spec Opt_Facts2 Env_Model Env_Spec Env_Proofs NE_Model NE_Spec NE_Proofs.
Import ListNotations.
Open Scope nat_scope.

Section M.
  Context {G N : Type} (net_new : G -> N) (activate : N -> list Q -> N * list Q) (lib : list (list Q) -> option (list G))
          (fit : list val -> Q) (set_order : list Z -> list Z) (act_sample : nat -> action) (obs_sample : nat -> list Q) (randint : nat -> Z -> Z -> Z) (c : econf)
          (sp : aspace) (x0 : option (list Q)).
  Notation step := (env_step fit obs_sample randint c).
  Notation played := (played activate fit obs_sample randint c sp).
  Notation episode := (episode net_new activate fit act_sample obs_sample randint c sp x0).
  Notation episodes := (episodes net_new activate fit act_sample obs_sample randint c sp x0).
  Notation copies := (copies net_new activate fit act_sample obs_sample randint c sp x0).
  Notation serial_loop := (serial_loop activate fit obs_sample randint c sp).
  Notation worker_loop := (worker_loop activate fit obs_sample randint c sp).
  Notation eval_serial := (eval_serial net_new activate fit act_sample obs_sample randint c sp x0).
  Notation eval_parallel := (eval_parallel net_new activate fit act_sample obs_sample randint c sp x0).
  Notation neat_evolute := (neat_evolute net_new activate lib fit act_sample obs_sample randint c sp x0).
  Notation b := (ec_space c).

  (** Steps left until the environment says done. *)
  Definition left_steps (st : estate) : nat := if n_done st then 1 else ec_len c - n_counter st.
  Lemma left_step st a r st' : n_counter st < ec_len c -> step sp st a = Some (r, st') ->
    n_counter st' < ec_len c /\ (left_steps st = 1 /\ r_done r = true /\ n_done st' = true \/ r_done r = false /\ n_done st' = false /\ left_steps st = S (left_steps st')) /\
    (n_done st = false -> n_done st' = true -> n_counter st' = 0).
  Proof.
    intros Hc H. destruct (step_clock _ _ _ _ _ _ _ _ _ H) as (K1 & K2). rewrite K1. unfold left_steps. destruct (Nat.eqb_spec (S (n_counter st)) (ec_len c)); destruct K2 as (K2 & K3); rewrite K2, K3.
    - split; [lia|]. split; [|auto]. left. destruct (n_done st); split; auto; lia.
    - split; [lia|]. destruct (n_done st); [split; [left; auto|discriminate]|]. split; [|congruence]. right. split; [auto|]. split; [auto|]. lia.
  Qed.

  Lemma till_cons r rs : till_done (r :: rs) -> rs = [] /\ r_done r = true \/ r_done r = false /\ till_done rs.
  Proof.
    intros (l & x & E & F & D). destruct l as [|y l]; cbn in E; injection E as -> ->; [auto|]. inversion F; subst. right. split; auto. exists l, x. auto.
  Qed.
  Lemma till_nonempty : ~ till_done []. Proof. intros (l & r & E & _). destruct l; discriminate E. Qed.

  Lemma played_len rs : forall n ob st st', n_counter st < ec_len c -> played n ob st rs st' -> till_done rs ->
    length rs = left_steps st /\ n_done st' = true /\ n_counter st' < ec_len c /\ (n_done st = false -> n_counter st' = 0).
  Proof.
    induction rs as [|r rs IH]; intros n ob st st' Hc P T; [exfalso; exact (till_nonempty T)|]. cbn in P. destruct P as (a & st1 & _ & Es & P).
    destruct (left_step _ _ _ _ Hc Es) as (Hc1 & K & K2). apply till_cons in T. destruct T as [(-> & T)|(T1 & T2)].
    - cbn in P. subst st'. destruct K as [(K & _ & K3)|(K & _)]; [|congruence]. cbn. repeat split; auto.
    - destruct K as [(_ & K & _)|(_ & K & K3)]; [congruence|]. destruct (IH _ _ _ _ Hc1 P T2) as (A & B & C & D). cbn. rewrite A, K3. split; [auto|]. split; [auto|]. split; [auto|]. auto.
  Qed.

  Lemma first_state st f : first_input act_sample obs_sample c x0 st = Some f -> n_counter (snd f) = n_counter st /\ n_done (snd f) = (match x0 with Some _ => n_done st | None => false end).
  Proof.
    unfold first_input. destruct x0; intros H; [injection H as <-; auto|]. apply bind_Some in H. destruct H as (q & E & H). injection H as <-. cbn [snd]. unfold env_reset in E.
    destruct (ec_meth c); try discriminate E; injection E as <-; auto.
  Qed.

  Lemma episode_len g st rs st' : n_counter st < ec_len c -> episode g st rs st' ->
    length rs = (match x0 with Some _ => left_steps st | None => ec_len c - n_counter st end) /\ n_done st' = true /\ n_counter st' < ec_len c /\
    (x0 = None \/ n_done st = false -> n_counter st' = 0).
  Proof.
    intros Hc (f & Ef & P & T). destruct (first_state _ _ Ef) as (E1 & E2). destruct (played_len _ _ _ _ _ ltac:(rewrite E1; exact Hc) P T) as (A & B & C & D).
    split; [|split; [exact B|split; [exact C|]]].
    - rewrite A. unfold left_steps. rewrite E1, E2. destruct x0; reflexivity.
    - intros H. apply D. rewrite E2. destruct x0; [destruct H; [discriminate|auto]|reflexivity].
  Qed.

  Lemma reset_len gs : forall st eps st', x0 = None -> n_counter st = 0 -> 0 < ec_len c -> episodes gs st eps st' -> Forall (fun e => length e = ec_len c) eps.
  Proof.
    intros st eps st' Hx. revert st eps st'. induction gs as [|g gs IH]; intros st [|e eps] st' H0 Hl H; cbn in H; try contradiction; [constructor|].
    destruct H as (st1 & H1 & H2). assert (Hc : n_counter st < ec_len c) by (rewrite H0; exact Hl). destruct (episode_len _ _ _ _ Hc H1) as (A & _ & _ & D). rewrite Hx in A. constructor; [lia|]. exact (IH st1 eps st' (D (or_introl Hx)) Hl H2).
  Qed.
  Lemma ones gs : forall st eps st', x0 <> None -> n_counter st < ec_len c -> n_done st = true -> episodes gs st eps st' -> Forall (fun e => length e = 1) eps /\ n_done st' = true /\ n_counter st' < ec_len c.
  Proof.
    intros st eps st' Hx. revert st eps st'. induction gs as [|g gs IH]; intros st [|e eps] st' H0 Hd H; cbn in H; try contradiction; [subst; auto|].
    destruct H as (st1 & H1 & H2). destruct (episode_len _ _ _ _ H0 H1) as (A & B & C & _). destruct (IH _ _ _ C B H2) as (F & K). split; [|exact K]. constructor; [|exact F].
    rewrite A. unfold left_steps. rewrite Hd. destruct x0; congruence.
  Qed.
  Lemma first_then_ones gs st eps st' : x0 <> None -> n_counter st = 0 -> n_done st = false -> 0 < ec_len c -> episodes gs st eps st' ->
    match eps with [] => True | e :: l => length e = ec_len c /\ Forall (fun e => length e = 1) l end.
  Proof.
    intros Hx H0 Hd Hl H. destruct gs as [|g gs], eps as [|e eps]; cbn in H; try contradiction; auto. destruct H as (st1 & H1 & H2).
    assert (Hc : n_counter st < ec_len c) by (rewrite H0; exact Hl). destruct (episode_len _ _ _ _ Hc H1) as (A & B & C & _). split; [|eapply ones; eauto]. rewrite A. unfold left_steps. rewrite Hd, H0. destruct x0; [lia|congruence].
  Qed.
  Lemma copies_len gs st eps : n_counter st = 0 -> n_done st = false -> 0 < ec_len c -> copies gs st eps -> Forall (fun e => length e = ec_len c) eps.
  Proof.
    intros H0 Hd Hl H. unfold NE_Spec.copies in H. induction H as [|g rs gs eps (st' & H1) H2 IH]; constructor; auto.
    assert (Hc : n_counter st < ec_len c) by (rewrite H0; exact Hl). destruct (episode_len _ _ _ _ Hc H1) as (A & _). rewrite A. unfold left_steps. rewrite Hd, H0. destruct x0; lia.
  Qed.

  (** Every individual evaluated is a point of the space. *)
  Lemma step_valid st a r st' : wf_space b -> ec_meth c = MAll -> step sp st a = Some (r, st') -> valid b (r_x r).
  Proof.
    intros (D & W) M H. unfold env_step in H. apply bind_Some in H. destruct H as ([v st1] & E & H). apply bind_Some in H. destruct H as (x & Ex & H). injection H as <- _. cbn [r_x fst] in *.
    unfold env_map in E. rewrite M in E. apply bind_Some in E. destruct E as (w & E & H). injection H as <- _. unfold whole_action in E. apply bind_Some in E. destruct E as (u & _ & E).
    destruct (length u =? length (env_dims b)) eqn:L; [|discriminate E]. apply Nat.eqb_eq in L. injection E as <-. rewrite clip_fix1 in Ex; [|apply wf_dims_env; exact W|exact L].
    rewrite env_dims_length in L. destruct (decode_ok b _ D (fix1_feasible b W u L)) as (y & Ey & V & _). congruence.
  Qed.
  Lemma played_valid rs : wf_space b -> ec_meth c = MAll -> forall n ob st st', played n ob st rs st' -> Forall (fun r => valid b (r_x r)) rs.
  Proof.
    intros W M. induction rs as [|r rs IH]; intros n ob st st' H; [constructor|]. cbn in H. destruct H as (a & st1 & _ & H2 & H3). constructor; [eapply step_valid; eauto|eapply IH; eauto].
  Qed.
  Lemma episodes_valid gs : wf_space b -> ec_meth c = MAll -> forall st eps st', episodes gs st eps st' -> Forall (valid b) (concat (map (map r_x) eps)).
  Proof.
    intros W M. induction gs as [|g gs IH]; intros st [|e eps] st' H; cbn in H; try contradiction; [constructor|]. destruct H as (st1 & (f & _ & P & _) & H2). cbn. apply Forall_app.
    split; [apply Forall_map; eapply played_valid; eauto|eapply IH; eauto].
  Qed.
  Lemma copies_valid gs st eps : wf_space b -> ec_meth c = MAll -> copies gs st eps -> Forall (valid b) (concat (map (map r_x) eps)).
  Proof.
    intros W M H. unfold NE_Spec.copies in H. induction H as [|g rs gs eps (st' & f & _ & P & _) H2 IH]; [constructor|]. cbn. apply Forall_app. split; [apply Forall_map; eapply played_valid; eauto|exact IH].
  Qed.

  Theorem run_valid parallel fuel ngen st x y gl lo fits st' log : wf_space b -> ec_meth c = MAll -> n_counter st < ec_len c ->
    neat_evolute parallel fuel ngen st = Some (x, y, gl, lo, fits, st', log) -> Forall (valid b) log /\ valid b x.
  Proof.
    intros W M Hc H.
    assert (K : Forall (valid b) log /\ In x log).
    { destruct parallel.
      - destruct (parallel_run _ _ _ _ _ _ _ _ _ _ _ _ _ _ _ _ _ _ _ _ H) as (gens & eps & _ & _ & C & _ & E & (B & _) & _). split; [rewrite E; eapply copies_valid; eauto|].
        rewrite E. apply in_map_iff in B. destruct B as (r & <- & Hr). apply in_concat in Hr. destruct Hr as (l & Hl & Hr). apply in_map_iff in Hl. destruct Hl as (e & <- & He).
        apply in_concat. exists (map r_x e). split; [apply in_map; exact He|]. apply in_map. unfold last_of in Hr. destruct (rev e) as [|r' q] eqn:Er; [contradiction|]. destruct Hr as [->|[]]. apply in_rev. rewrite Er. left. reflexivity.
      - destruct (serial_run _ _ _ _ _ _ _ _ _ _ _ _ _ _ _ _ _ _ _ _ Hc H) as (gens & eps & _ & _ & C & _ & E & (B & _) & _). split; [rewrite E; eapply episodes_valid; eauto|exact B]. }
    destruct K as (K1 & K2). split; [exact K1|]. rewrite Forall_forall in K1. apply K1. exact K2.
  Qed.
End M.

(** Runs that end well. *)
Section T.
  Context {G N : Type} (net_new : G -> N) (activate : N -> list Q -> N * list Q) (lib : list (list Q) -> option (list G))
          (fit : list val -> Q) (set_order : list Z -> list Z) (act_sample : nat -> action) (obs_sample : nat -> list Q) (randint : nat -> Z -> Z -> Z) (c : econf)
          (x0 : option (list Q)).
  Notation b := (ec_space c).
  Notation step := (env_step fit obs_sample randint c).
  Context (Hw : wf_space b) (Hsp : env_aspace set_order c = Some ABox) (Hout : forall n ob, length (snd (activate n ob)) = length b).
  Notation serial_loop := (serial_loop activate fit obs_sample randint c ABox).
  Notation worker_loop := (worker_loop activate fit obs_sample randint c ABox).

  Lemma step_total st v : length v = length b -> exists r st', step ABox st (ActBox v) = Some (r, st').
  Proof.
    intros L. pose proof (box_map set_order obs_sample randint c st v Hw Hsp L) as E. destruct Hw as (D & W).
    assert (O : observable b (map2 (fun d y => fix1 d (action_map1 d y)) (env_dims b) v)).
    { rewrite <- map2_map2. apply fix1_feasible; auto. rewrite map2_len'; rewrite env_dims_length; auto. }
    destruct (step_by fit obs_sample randint c _ _ _ _ _ D O E) as (x & H & _). eauto.
  Qed.
  Lemma serial_total k : forall n ob st loc cnt best, n_counter st < ec_len c -> left_steps c st <= k -> serial_loop k n ob st loc cnt best <> None.
  Proof.
    induction k as [|k IH]; intros n ob st loc cnt best Hc Hk.
    - unfold left_steps in Hk. destruct (n_done st); lia.
    - cbn [NE_Model.serial_loop net_action bind]. destruct (step_total st (snd (activate n ob)) (Hout _ _)) as (r & st' & E). rewrite E. cbn [bind].
      destruct (left_step _ _ _ _ _ _ _ _ _ Hc E) as (Hc1 & K & _). destruct K as [(_ & K & _)|(K & _ & K3)]; rewrite K; cbn [orb]; [discriminate|].
      destruct (_ =? ec_len c); [discriminate|]. match goal with |- context [serial_loop k ?a ?o ?s ?l ?n ?bb] => specialize (IH a o s l n bb Hc1 ltac:(lia)); destruct (serial_loop k a o s l n bb) as [[[[[? ?] ?] ?] ?]|] end; [discriminate|congruence].
  Qed.
  Lemma worker_total k : forall n ob st loc, n_counter st < ec_len c -> left_steps c st <= k -> worker_loop k n ob st loc <> None.
  Proof.
    induction k as [|k IH]; intros n ob st loc Hc Hk.
    - unfold left_steps in Hk. destruct (n_done st); lia.
    - cbn [NE_Model.worker_loop net_action bind]. destruct (step_total st (snd (activate n ob)) (Hout _ _)) as (r & st' & E). rewrite E. cbn [bind].
      destruct (left_step _ _ _ _ _ _ _ _ _ Hc E) as (Hc1 & K & _). destruct K as [(_ & K & _)|(K & _ & K3)]; rewrite K; [discriminate|].
      match goal with |- context [worker_loop k ?a ?o ?s ?l] => specialize (IH a o s l Hc1 ltac:(lia)); destruct (worker_loop k a o s l) as [[[[? ?] ?] ?]|] end; [discriminate|congruence].
  Qed.
  Lemma first_total st : exists f, first_input act_sample obs_sample c x0 st = Some f.
  Proof. unfold first_input. destruct x0; [eauto|]. unfold env_reset. pose proof (aspace_meth set_order c _ Hsp) as M. cbn in M. rewrite M. cbn. eauto. Qed.
  Lemma left_le st : n_counter st < ec_len c -> left_steps c st <= ec_len c.
  Proof. unfold left_steps. destruct (n_done st); lia. Qed.

  Lemma eval_serial_total fuel gs : ec_len c <= fuel -> forall st s, n_counter st < ec_len c -> eval_serial net_new activate fit act_sample obs_sample randint c ABox x0 fuel gs st s <> None.
  Proof.
    intros Hf. induction gs as [|g gs IH]; intros st s Hc; [discriminate|]. cbn [NE_Model.eval_serial]. destruct (first_total st) as (f & Ef). rewrite Ef. cbn [bind].
    destruct (first_state _ _ _ _ _ _ Ef) as (E1 & _). pose proof (left_le (snd f) ltac:(lia)) as Lf.
    destruct (serial_loop fuel (net_new g) (fst f) (snd f) None 0 (s_best s)) as [[[[[rew loc] best] st1] log]|] eqn:E; [|exfalso; eapply serial_total; [| |exact E]; lia].
    cbn [bind]. apply serial_spec in E; [|lia|left; auto]. destruct E as (_ & _ & _ & _ & _ & _ & _ & _ & _ & Hc1).
    specialize (IH st1 (note c s best loc) Hc1). destruct (eval_serial _ _ _ _ _ _ _ _ _ _ _ _ _) as [[[[? ?] ?] ?]|]; [discriminate|congruence].
  Qed.
  Lemma eval_parallel_total fuel gs : ec_len c <= fuel -> forall st s, n_counter st < ec_len c -> eval_parallel net_new activate fit act_sample obs_sample randint c ABox x0 fuel gs st s <> None.
  Proof.
    intros Hf. induction gs as [|g gs IH]; intros st s Hc; [discriminate|]. cbn [NE_Model.eval_parallel]. destruct (first_total st) as (f & Ef). rewrite Ef. cbn [bind].
    destruct (first_state _ _ _ _ _ _ Ef) as (E1 & _). pose proof (left_le (snd f) ltac:(lia)) as Lf.
    destruct (worker_loop fuel (net_new g) (fst f) (snd f) None) as [[[[rew loc] x] log]|] eqn:E; [|exfalso; eapply worker_total; [| |exact E]; lia].
    cbn [bind]. match goal with |- context [note c s ?best loc] => specialize (IH st (note c s best loc) Hc) end. destruct (eval_parallel _ _ _ _ _ _ _ _ _ _ _ _ _) as [[[[? ?] ?] ?]|]; [discriminate|congruence].
  Qed.
  Lemma eval_best fuel (parallel : bool) gs : forall st s fs st' s' log, (if parallel then eval_parallel net_new activate fit act_sample obs_sample randint c ABox x0 fuel gs st s else eval_serial net_new activate fit act_sample obs_sample randint c ABox x0 fuel gs st s) = Some (fs, st', s', log) ->
    n_counter st < ec_len c -> n_counter st' < ec_len c /\ (gs <> [] \/ s_best s <> None -> s_best s' <> None).
  Proof.
    induction gs as [|g gs IH]; intros st s fs st' s' log H Hc; [destruct parallel; injection H as _ <- <- _; split; auto; intros [K|K]; congruence|].
    destruct parallel; [cbn [NE_Model.eval_parallel] in H|cbn [NE_Model.eval_serial] in H].
    - apply bind_Some in H. destruct H as (f & Ef & H). apply bind_Some in H. destruct H as ([[[rew loc] x] log1] & E & H). apply bind_Some in H. destruct H as ([[[fs2 st2] s2] log2] & E2 & H). injection H as <- <- <- <-.
      destruct (IH _ _ _ _ _ _ E2 Hc) as (A & B). split; [exact A|]. intros _. apply B. right. cbn [note s_best]. destruct (improves _ _) eqn:Ei; [discriminate|]. destruct (s_best s); [discriminate|discriminate Ei].
    - apply bind_Some in H. destruct H as (f & Ef & H). apply bind_Some in H. destruct H as ([[[[rew loc] best] st1] log1] & E & H). apply bind_Some in H. destruct H as ([[[fs2 st2] s2] log2] & E2 & H). injection H as <- <- <- <-.
      destruct (first_state _ _ _ _ _ _ Ef) as (E1 & _). apply serial_spec in E; [|lia|left; auto]. destruct E as (rs & r & _ & _ & _ & _ & Eb & _ & _ & Hc1).
      destruct (IH _ _ _ _ _ _ E2 Hc1) as (A & B). split; [exact A|]. intros _. apply B. right. cbn [note s_best]. rewrite Eb, fold_left_app. cbn [fold_left]. unfold track at 1. destruct (improves _ _) eqn:Ei; [discriminate|]. destruct (fold_left track rs (s_best s)); [discriminate|discriminate Ei].
  Qed.

  Lemma gens_total (parallel : bool) fuel k : ec_len c <= fuel -> forall past st s, n_counter st < ec_len c ->
    exists fits st' s' log, generations lib (if parallel then eval_parallel net_new activate fit act_sample obs_sample randint c ABox x0 fuel else eval_serial net_new activate fit act_sample obs_sample randint c ABox x0 fuel) k past st s = Some (fits, st', s', log) /\
      (s_best s <> None -> s_best s' <> None).
  Proof.
    intros Hf. induction k as [|k IH]; intros past st s Hc; cbn [generations]; [eauto 8|]. destruct (lib past) as [gs|]; [|eauto 8].
    destruct ((if parallel then _ else _) gs st s) as [[[[fs st1] s1] log1]|] eqn:E.
    2:{ exfalso. destruct parallel; [eapply eval_parallel_total|eapply eval_serial_total]; eauto. }
    assert (E' : (if parallel then eval_parallel net_new activate fit act_sample obs_sample randint c ABox x0 fuel gs st s else eval_serial net_new activate fit act_sample obs_sample randint c ABox x0 fuel gs st s) = Some (fs, st1, s1, log1)) by (destruct parallel; exact E).
    destruct (eval_best _ _ _ _ _ _ _ _ _ E' Hc) as (A & B). cbn [bind]. destruct (IH (past ++ [fs]) st1 s1 A) as (fits & st2 & s2 & log2 & E2 & K). rewrite E2. cbn [bind].
    do 4 eexists. split; [reflexivity|]. auto.
  Qed.

  Theorem run_total parallel fuel ngen st gs : ec_len c <= fuel -> n_counter st < ec_len c -> 1 <= ngen -> lib [] = Some gs -> gs <> [] ->
    (forall x, x0 = Some x -> length x = length b) ->
    neat_evolute net_new activate lib fit act_sample obs_sample randint c ABox x0 parallel fuel ngen st <> None.
  Proof.
    intros Hf Hc Hn Hl Hg Hx. unfold neat_evolute.
    replace (match x0 with Some x => negb (length x =? length b) | None => false end) with false.
    2:{ destruct x0 as [x|]; [|reflexivity]. rewrite (Hx x eq_refl), Nat.eqb_refl. reflexivity. }
    destruct ngen as [|k]; [lia|]. cbn [generations]. rewrite Hl.
    destruct ((if parallel then _ else _) gs st _) as [[[[fs st1] s1] log1]|] eqn:E.
    2:{ exfalso. destruct parallel; [eapply eval_parallel_total|eapply eval_serial_total]; eauto. }
    assert (E' : (if parallel then eval_parallel net_new activate fit act_sample obs_sample randint c ABox x0 fuel gs st (Search None [] []) else eval_serial net_new activate fit act_sample obs_sample randint c ABox x0 fuel gs st (Search None [] [])) = Some (fs, st1, s1, log1)) by (destruct parallel; exact E).
    destruct (eval_best _ _ _ _ _ _ _ _ _ E' Hc) as (A & B). cbn [bind]. destruct (gens_total parallel fuel k Hf ([] ++ [fs]) st1 s1 A) as (fits & st2 & s2 & log2 & E2 & K).
    rewrite E2. cbn [bind]. specialize (K (B (or_introl Hg))). destruct (s_best s2); [discriminate|congruence].
  Qed.
End T.

(** An all-integer space: the first output has to name integers. *)
Section D.
  Context {G N : Type} (net_new : G -> N) (activate : N -> list Q -> N * list Q) (lib : list (list Q) -> option (list G))
          (fit : list val -> Q) (act_sample : nat -> action) (obs_sample : nat -> list Q) (randint : nat -> Z -> Z -> Z) (c : econf)
          (maps : list (list Z)) (x0 : option (list Q)).
  Lemma no_index l : forall k, (exists q, In q l /\ ~ is_int q) -> traverse (fun _ q => index_of q) k l = None.
  Proof.
    induction l as [|a l IH]; intros k (q & Hq & Hn); [destruct Hq|]. cbn. destruct Hq as [->|Hq].
    - unfold index_of. destruct (int_of q) as [z|] eqn:E; [|reflexivity]. exfalso. apply Hn. unfold int_of in E. destruct (Qeq_bool q (inject_Z (Qfloor q))) eqn:Eq; [|discriminate E]. apply Qeq_bool_eq in Eq. eexists; exact Eq.
    - destruct (index_of a); [|reflexivity]. cbn. rewrite (IH (S k)) by eauto. reflexivity.
  Qed.
  Theorem discrete_stop parallel fuel ngen st g gs : 1 <= ngen -> lib [] = Some (g :: gs) ->
    (forall ob, exists q, In q (snd (activate (net_new g) ob)) /\ ~ is_int q) ->
    neat_evolute net_new activate lib fit act_sample obs_sample randint c (AMulti maps) x0 parallel fuel ngen st = None.
  Proof.
    intros Hn Hl Ho. unfold neat_evolute. destruct (match x0 with Some x => _ | None => false end); [reflexivity|]. destruct ngen as [|k]; [lia|]. cbn [generations]. rewrite Hl.
    destruct parallel; [cbn [eval_parallel]|cbn [eval_serial]]; destruct (first_input _ _ _ _ _) as [f|]; cbn [bind]; try reflexivity; destruct fuel; try reflexivity;
      [cbn [worker_loop]|cbn [serial_loop]]; cbn [net_action]; rewrite no_index by apply Ho; reflexivity.
  Qed.
End D.
