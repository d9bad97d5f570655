(** DQN.learn refines its specification (C78). *)
From Coq Require Import List Arith ZArith QArith Bool Lia Lqa.
From Verif Require Import Base BaseFacts Opt_Model Sched_Model CB_Model CB_Spec CB_Proofs CB_Total Replay_Model LN_Spec LN_Proofs LN_Acer DQ_Model DQ_Spec.
Import ListNotations.
Open Scope nat_scope.

(** A ring of [sz] cells after the transitions [past]. *)
Definition ring {X} (sz : nat) (past mem : list X) (nx : nat) : Prop :=
  nx = length past mod sz /\ length mem = min (length past) sz /\
  forall i, i < min (length past) sz -> nth_error mem i = nth_error past (in_cell sz (length past - 1) i).
Lemma ring_put {X} sz (past mem : list X) nx x : 1 <= sz -> ring sz past mem nx ->
  ring sz (past ++ [x]) (if length mem <=? nx then mem ++ [x] else set_nth mem nx x) ((nx + 1) mod sz).
Proof.
  intros Hs (H1 & H2 & H3). set (u := length past) in *. unfold ring. rewrite app_length. cbn [length]. fold u.
  assert (Nx : (u mod sz + 1) mod sz = (u + 1) mod sz) by (apply Nat.add_mod_idemp_l; lia).
  assert (Hm : u mod sz < sz) by (apply Nat.mod_upper_bound; lia).
  split; [rewrite H1; exact Nx|]. rewrite H1, H2. replace (u + 1 - 1) with u by lia.
  assert (Old : forall i, i < u -> nth_error (past ++ [x]) (in_cell sz (u - 1) i) = nth_error past (in_cell sz (u - 1) i)).
  { intros i Hi. apply nth_error_app1. pose proof (in_cell_le sz (u - 1) i). fold u. lia. }
  assert (New : nth_error (past ++ [x]) u = Some x). { rewrite nth_error_app2 by (unfold u; lia). unfold u. rewrite Nat.sub_diag. reflexivity. }
  destruct (Nat.leb_spec (min u sz) (u mod sz)) as [Hl|Hl].
  - assert (Hu : u < sz). { destruct (le_lt_dec sz u); auto. lia. }
    rewrite (Nat.mod_small u sz Hu) in *. split; [rewrite app_length, H2; cbn [length]; lia|]. intros i Hi. destruct (Nat.eq_dec i u) as [->|Ni].
    + rewrite nth_error_app2 by lia. rewrite H2. replace (u - min u sz) with 0 by lia. pose proof (in_cell_new sz u Hs) as Q. rewrite (Nat.mod_small u sz Hu) in Q. rewrite Q, New. reflexivity.
    + rewrite nth_error_app1 by lia. rewrite H3 by lia. rewrite (in_cell_old sz u i); [symmetry; apply Old; lia|exact Hs|lia|lia|rewrite Nat.mod_small by lia; exact Ni].
  - assert (Hu : sz <= u). { destruct (le_lt_dec sz u); auto. rewrite Nat.mod_small in Hl by lia. lia. }
    split; [rewrite set_nth_length, H2; clear - Hu; lia|]. intros i Hi. rewrite nth_error_set_nth. destruct (Nat.eqb_spec i (u mod sz)) as [->|Ni].
    + assert (u mod sz <? length mem = true) as -> by (apply Nat.ltb_lt; lia). rewrite in_cell_new by lia. rewrite New. reflexivity.
    + rewrite H3 by (clear - Hi Hu; lia). rewrite (in_cell_old sz u i); [symmetry; apply Old; clear - Hi Hu; lia|exact Hs|clear - Hi; lia|clear - Hi Hu; lia|exact Ni].
Qed.

Lemma gather_fetch {O A} (mem past : list (@transition O A)) (h : nat -> nat) l : (forall i, In i l -> exists t, nth_error mem i = Some t /\ nth_error past (h i) = Some t) ->
  gather mem l = Some (fetch past (map h l)).
Proof.
  intros H. induction l as [|i l IH]; [reflexivity|]. cbn [gather map fetch flat_map]. destruct (H i (or_introl eq_refl)) as (t & E1 & E2). rewrite E1, E2.
  rewrite IH; [reflexivity|]. intros j Hj. apply H. right; exact Hj.
Qed.
Lemma fetch_app {X} (past rest : list X) ks : (forall k, In k ks -> k < length past) -> fetch (past ++ rest) ks = fetch past ks.
Proof. intros H. unfold fetch. induction ks as [|k ks IH]; [reflexivity|]. cbn [flat_map]. rewrite nth_error_app1 by (apply H; left; reflexivity). rewrite IH; auto. intros j Hj. apply H. right; exact Hj. Qed.

Section D.
  Context {St O A : Type} (enext : St -> A -> St) (rew : St -> A -> Q) (obs_of : St -> O) (done_of : St -> bool) (ereset : St -> St) (vec : bool)
          (act : nat -> Q -> O -> A) (ans : nat -> nat -> answer) (ev : nat -> nat -> Q) (draws : nat -> nat -> nat).
  Notation dqn_steps := (dqn_steps enext rew obs_of done_of ereset vec act ans ev draws).
  Notation dqn_learn := (dqn_learn enext rew obs_of done_of ereset vec act ans ev draws).
  Notation next_state := (next_state enext done_of ereset vec).
  Notation state_after := (state_after enext done_of ereset vec).
  Notation dpath := (dpath enext rew obs_of done_of ereset vec act).
  Notation updates := (updates enext done_of ereset vec).
  Notation step_log := (step_log enext done_of ereset vec).
  Notation calls := (calls ans ev).
  Notation tr := (@transition O A).
  Notation buf := (@buffer O A).

  Definition holds (p : dparams) (past : list tr) (b : buf) : Prop := maxsize b = p_size p /\ ring (p_size p) past (storage b) (next_idx b).

  Lemma state_app s l1 (l2 : list tr) : state_after s (l1 ++ l2) = state_after (state_after s l1) l2.
  Proof. unfold DQ_Spec.state_after. apply fold_left_app. Qed.

  Lemma train_spec p total past rest (b : buf) c c0 nt its : 1 <= p_size p -> holds p past b -> past <> [] -> (forall sg, notify sg c = notify sg c0) -> nt = length past + nt - length past ->
    forall nt0, nt = nt0 + length past ->
    train_now draws p total b c nt = Some its ->
    its = (if time_for p (p_freq p) nt0 (length past - 1)
     then map DEv (notify RolloutEnd c0) ++
          DTrain (nt0 + length past) (fetch (past ++ rest) (map (fun i => in_cell (p_size p) (length past - 1) (draws (nt0 + length past) i mod min (length past) (p_size p))) (seq 0 (p_batch p))))
                 (if p_prio p then linear_value total 1 (4#10) (nt0 + length past) else None) ::
          map DEv (notify RolloutStart c0)
     else []) :> list (ditem St O A).
  Proof.
    intros Hs (Hm & R1 & R2 & R3) Hp Same _ nt0 -> H. assert (Lp : 1 <= length past) by (destruct past; [congruence|simpl; lia]).
    unfold train_now, due, can_sample in H. unfold time_for. replace (1 + (length past - 1)) with (length past) by lia. rewrite R2 in H.
    destruct ((p_batch p <=? min (length past) (p_size p)) && (p_starts p <? nt0 + length past)) eqn:E1; cbn [andb bind] in H |- *; [|injection H as <-; reflexivity].
    destruct (p_freq p =? 0) eqn:E2; [discriminate H|]. cbn [bind] in H. destruct ((nt0 + length past) mod p_freq p =? 0); [|injection H as <-; reflexivity].
    assert (B : forall x, (let* data := gather (storage b) (map (fun i => draws (nt0 + length past) i mod min (length past) (p_size p)) (seq 0 (p_batch p))) in
        Some (map DEv (notify RolloutEnd c) ++ DTrain (nt0 + length past) data x :: map DEv (notify RolloutStart c))) = Some its ->
      its = map DEv (notify RolloutEnd c0) ++ DTrain (nt0 + length past) (fetch (past ++ rest) (map (fun i => in_cell (p_size p) (length past - 1) (draws (nt0 + length past) i mod min (length past) (p_size p))) (seq 0 (p_batch p)))) x :: map DEv (notify RolloutStart c0)).
    { intros x Hx. rewrite (gather_fetch _ past (fun i => in_cell (p_size p) (length past - 1) i)) in Hx.
      - cbn [bind] in Hx. injection Hx as <-. rewrite !Same. rewrite map_map. rewrite fetch_app; [reflexivity|].
        intros k Hk. apply in_map_iff in Hk. destruct Hk as (v & <- & _). pose proof (in_cell_le (p_size p) (length past - 1) (draws (nt0 + length past) v mod min (length past) (p_size p))). lia.
      - intros i Hi. apply in_map_iff in Hi. destruct Hi as (v & <- & _). pose proof (Nat.mod_upper_bound (draws (nt0 + length past) v) (min (length past) (p_size p)) ltac:(lia)) as Hb.
        rewrite R3 by exact Hb. destruct (nth_error past _) as [t|] eqn:En; [eauto|]. exfalso. apply nth_error_None in En.
        pose proof (in_cell_le (p_size p) (length past - 1) (draws (nt0 + length past) v mod min (length past) (p_size p))). lia. }
    destruct (p_prio p).
    - destruct (linear_value total 1 (4 # 10) (nt0 + length past)) as [x|]; [|discriminate H]. cbn [bind] in H. apply B. exact H.
    - cbn [bind] in H. apply B. exact H.
  Qed.
  Lemma target_spec p past (b : buf) nt0 its : 1 <= length past -> holds p past b -> target_now p b (nt0 + length past) = Some its ->
    its = (if time_for p (p_target p) nt0 (length past - 1) then [DTarget (nt0 + length past)] else []) :> list (ditem St O A).
  Proof.
    intros Lp (Hm & R1 & R2 & R3) H. unfold target_now, due, can_sample in H. unfold time_for. replace (1 + (length past - 1)) with (length past) by lia. rewrite R2 in H.
    destruct ((p_batch p <=? min (length past) (p_size p)) && (p_starts p <? nt0 + length past)); cbn [andb bind] in H |- *; [|injection H as <-; reflexivity].
    destruct (p_target p =? 0); [discriminate H|]. cbn [bind] in H. injection H as <-. reflexivity.
  Qed.

  Lemma epsilon_value p total nt x : linear_value (horizon p total) (p_final p) (p_init p) nt = Some x -> x = epsilon p total nt.
  Proof. unfold linear_value, epsilon. destruct (Nat.eqb (horizon p total) 0); [discriminate|]. intros [= <-]. reflexivity. Qed.

  Lemma nth_mid {X} (l1 : list X) x l2 : nth_error (l1 ++ x :: l2) (length l1) = Some x.
  Proof. rewrite nth_error_app2 by lia. rewrite Nat.sub_diag. reflexivity. Qed.

  Lemma steps_spec p total (c0 : cb) nt0 s0 k : forall past pouts s q c nt b sf qf cf ntf its,
    length pouts = length past -> s = state_after s0 past -> nt = nt0 + length past -> (forall sg, notify sg c = notify sg c0) -> holds p past b ->
    dqn_steps p total k s (obs_of s) q c nt b = Some (sf, qf, cf, ntf, its) ->
    exists stopped rows outs,
      dpath (epsilon p total) q nt s rows /\ calls c (counts nt 1 (length rows)) = Some (cf, outs) /\ dends k stopped outs /\
      its = flat_map (step_log p total draws c0 nt0 s0 stopped (past ++ rows) (pouts ++ outs)) (seq (length past) (length rows)) /\
      ntf = nt + length rows /\ qf = q + length rows /\ (k = length rows /\ stopped = false -> sf = state_after s rows) /\ (stopped = false -> k = 0 \/ 1 <= p_size p /\ horizon p total <> 0).
  Proof.
    induction k as [|k IH]; intros past pouts s q c nt b sf qf cf ntf its Lo Es En Same Hb H; cbn [DQ_Model.dqn_steps] in H.
    - injection H as <- <- <- <- <-. exists false, [], []. cbn. repeat split; auto.
    - destruct (linear_value (horizon p total) (p_final p) (p_init p) nt) as [eps|] eqn:Ee; [|discriminate H]. cbn [bind] in H.
      assert (Hz : horizon p total <> 0). { intros Z. unfold linear_value in Ee. rewrite Z in Ee. discriminate Ee. }
      apply epsilon_value in Ee. subst eps.
      set (a := act q (epsilon p total nt) (obs_of s)) in *. set (s' := enext s a) in *.
      destruct (on_step ans ev None (nt + 1) c) as [[[c1 evs] an]|] eqn:Ec; [|discriminate H]. cbn [bind] in H.
      set (r := (obs_of s, a, rew s a, obs_of s', done_of s') : tr).
      assert (St0 : forall l, state_after s0 (firstn (length past) (past ++ l)) = s). { intros l. rewrite firstn_app, Nat.sub_diag, firstn_all. cbn. rewrite app_nil_r. symmetry; exact Es. }
      destruct (match an with Stop => true | _ => false end) eqn:Ean.
      + destruct an; try discriminate Ean. injection H as <- <- <- <- <-.
        exists true, [r], [(evs, Stop)]. split; [split; [reflexivity|exact I]|]. split.
        { cbn [length]. rewrite counts_S. apply calls_cons. exists c1, evs, Stop, []. repeat split; auto. }
        split. { cbn. split; [lia|]. split; [lia|]. split; [exists evs; reflexivity|]. intros i o Hi; lia. }
        split. { cbn [length seq flat_map]. rewrite app_nil_r. unfold DQ_Spec.step_log. rewrite nth_mid. rewrite <- Lo at 1. rewrite nth_mid. rewrite St0.
          rewrite app_length. cbn [length andb]. assert (1 + length past =? length past + 1 = true) as -> by (apply Nat.eqb_eq; lia). cbn. rewrite app_nil_r. rewrite <- En. reflexivity. }
        cbn [length]. split; [lia|]. split; [lia|]. split; [intros (_ & D); discriminate D|discriminate].
      + assert (Na : an <> Stop) by (intros ->; discriminate Ean).
        assert (H' : (let* b' := add b (obs_of s) a (rew s a) (obs_of s') (done_of s') in
            let* trn := train_now draws p total b' c1 (nt + 1) in let* tg := target_now p b' (nt + 1) in
            let* z := dqn_steps p total k (next_state s a) (obs_of (next_state s a)) (1 + q) c1 (nt + 1) b' in let '(sf, qf, cf, ntf, its') := z in
            Some (sf, qf, cf, ntf, (DEnv s a (epsilon p total nt) :: map DEv evs) ++ (if done_of s' && negb vec then [DReset s'] else []) ++ trn ++ tg ++ its')) = Some (sf, qf, cf, ntf, its)).
        { destruct an; [exact H|congruence|exact H]. }
        clear H. unfold add, put in H'. destruct Hb as (Hm & Hr). rewrite Hm in H'. destruct (Nat.eqb_spec (p_size p) 0) as [Z|Z]; [discriminate H'|]. cbn [bind] in H'.
        fold r in H'.
        match type of H' with context [train_now draws p total ?x c1 _] => set (b' := x) in * end.
        assert (Hb' : holds p (past ++ [r]) b'). { split; [reflexivity|]. unfold b'. cbn [storage next_idx]. apply ring_put; [lia|exact Hr]. }
        destruct (train_now draws p total b' c1 (nt + 1)) as [trn|] eqn:Et; [|discriminate H']. cbn [bind] in H'.
        destruct (target_now p b' (nt + 1)) as [tg|] eqn:Eg; [|discriminate H']. cbn [bind] in H'.
        destruct (dqn_steps p total k (next_state s a) (obs_of (next_state s a)) (1 + q) c1 (nt + 1) b') as [[[[[sf1 qf1] cf1] ntf1] its1]|] eqn:Er; [|discriminate H']. cbn [bind] in H'.
        injection H' as <- <- <- <- <-.
        assert (Same1 : forall sg, notify sg c1 = notify sg c0). { intros sg. rewrite (notify_same _ _ _ _ _ _ _ _ Ec). apply Same. }
        assert (Lp : length (past ++ [r]) = length past + 1) by (rewrite app_length; reflexivity).
        apply (IH (past ++ [r]) (pouts ++ [(evs, an)])) in Er; auto.
        2:{ rewrite !app_length. cbn. lia. }
        2:{ rewrite state_app. rewrite <- Es. reflexivity. }
        2:{ lia. }
        destruct Er as (st & rows & outs & P & C & D & Hits & Hnt & Hq & Hsf & Hz').
        exists st, (r :: rows), ((evs, an) :: outs). split; [split; [reflexivity|replace (1 + nt) with (nt + 1) by lia; exact P]|]. split.
        { cbn [length]. rewrite counts_S. apply calls_cons. exists c1, evs, an, outs. repeat split; auto. }
        pose proof (calls_length _ _ _ _ _ _ C) as Lo2. rewrite counts_length in Lo2.
        split. { unfold dends in *. destruct st.
          - destruct D as (D1 & D2 & D3). cbn [length]. split; [lia|]. split; [lia|]. replace (S (length outs) - 1) with (length [(evs, an)] + (length outs - 1)) by (cbn; lia).
            change ((evs, an) :: outs) with ([(evs, an)] ++ outs). apply stopped_app; auto.
          - destruct D as (D1 & D2). cbn [length]. split; [lia|]. constructor; auto. }
        split.
        { cbn [length seq flat_map]. rewrite Lp in Hits. rewrite <- !app_assoc in Hits. cbn [app] in Hits. replace (length past + 1) with (S (length past)) in Hits by lia. rewrite Hits.
          assert (No : nth_error (pouts ++ (evs, an) :: outs) (length past) = Some (evs, an)) by (rewrite <- Lo; apply nth_mid).
          unfold DQ_Spec.step_log at 2. rewrite nth_mid, No, St0.
          assert (st && (1 + length past =? length (past ++ r :: rows)) = false) as ->.
          { destruct st; [|reflexivity]. cbn [andb]. apply Nat.eqb_neq. rewrite app_length. cbn [length]. destruct D as (D1 & _). lia. }
          rewrite <- En. cbn [fst act_of r]. rewrite <- app_comm_cons, <- app_assoc. f_equal. f_equal. unfold DQ_Spec.updates. rewrite St0. rewrite <- !app_assoc. fold a. fold s'. f_equal.
          rewrite !(app_assoc _ _ (flat_map _ _)). f_equal.
          change (past ++ r :: rows) with (past ++ [r] ++ rows). rewrite (app_assoc past [r] rows).
          f_equal.
          - rewrite (train_spec p total (past ++ [r]) rows b' c1 c0 (nt + 1) trn) with (nt0 := nt0); auto.
            + rewrite Lp. replace (length past + 1 - 1) with (length past) by lia. replace (1 + length past) with (length past + 1) by lia. reflexivity.
            + lia. + destruct past; discriminate. + lia. + rewrite Lp. lia.
          - rewrite (target_spec p (past ++ [r]) b' nt0 tg); auto; try (rewrite Lp; lia).
            + rewrite Lp. replace (length past + 1 - 1) with (length past) by lia. replace (1 + length past) with (length past + 1) by lia. reflexivity.
            + rewrite Lp. replace (nt0 + (length past + 1)) with (nt + 1) by lia. exact Eg. }
        cbn [length]. split; [lia|]. split; [lia|]. split.
        { intros (E1 & E2). apply Hsf. split; [lia|exact E2]. }
        intros _. right. split; [lia|exact Hz].
  Qed.

  Lemma dqn_spec p total reset s q c nt sf qf cf ntf its :
    dqn_learn p total reset s q c nt = Some (sf, qf, cf, ntf, its) ->
    let nt0 := if reset then 0 else nt in
    exists stopped rows outs,
      dpath (epsilon p total) q nt0 (ereset s) rows /\ calls c (counts nt0 1 (length rows)) = Some (cf, outs) /\ dends total stopped outs /\
      its = map DEv (notify TrainingStart c) ++ map DEv (notify RolloutStart c) ++ DReset s ::
            flat_map (step_log p total draws c nt0 (ereset s) stopped rows outs) (seq 0 (length rows)) ++ map DEv (notify TrainingEnd c) /\
      ntf = nt0 + length rows.
  Proof.
    intros H nt0. unfold DQ_Model.dqn_learn in H. fold nt0 in H.
    destruct (dqn_steps p total total (ereset s) (obs_of (ereset s)) q c nt0 (new_buffer (p_size p))) as [[[[[sf1 qf1] cf1] ntf1] its1]|] eqn:E; [|discriminate H]. cbn [bind] in H. injection H as <- <- <- <- <-.
    apply (steps_spec p total c nt0 (ereset s)) with (past := []) (pouts := []) in E; auto.
    2:{ split; [reflexivity|]. unfold ring. cbn. repeat split; auto. - destruct (p_size p); [reflexivity|]. symmetry; apply Nat.mod_small; lia. - intros i Hi; lia. }
    destruct E as (st & rows & outs & P & C & D & -> & -> & _ & _ & _). exists st, rows, outs. split; [exact P|]. split; [exact C|]. split; [exact D|]. split; [|reflexivity].
    cbn [app length]. rewrite (calls_same _ _ _ _ _ _ C). reflexivity.
  Qed.
End D.
