(** The training loops of A2C/ACKTR, PPO2 and ACER refine the specification (C76, C77). *)
From Coq Require Import List Arith ZArith QArith Bool Lia Permutation.
From Verif Require Import Base BaseFacts Opt_Model Sched_Model CB_Model CB_Spec CB_Proofs CB_Every CB_Eval CB_Total LN_Model LN_Spec LN_Proofs.
Import ListNotations.
Open Scope nat_scope.

(* ---- minibatches ---- *)
Lemma slices_cons b l1 l2 : 1 <= b -> length l1 = b -> slices b (l1 ++ l2) = l1 :: slices b l2.
Proof.
  intros Hb H. unfold slices. rewrite app_length, H. replace (b + length l2 + b - 1) with (1 * b + (length l2 + b - 1)) by lia.
  rewrite Nat.div_add_l by lia. rewrite Nat.add_1_l. change (seq 0 (S ((length l2 + b - 1) / b))) with (0 :: seq 1 ((length l2 + b - 1) / b)).
  rewrite <- seq_shift. cbn [map]. rewrite map_map. f_equal.
  - simpl. rewrite firstn_app, H, Nat.sub_diag. simpl. rewrite app_nil_r. apply firstn_all2. lia.
  - apply map_ext. intros i. f_equal. rewrite skipn_app, skipn_all2 by (simpl; lia). simpl. f_equal. lia.
Qed.
Lemma slices_spec b mb : 1 <= b -> forall l, length l = mb * b -> concat (slices b l) = l /\ length (slices b l) = mb /\ Forall (fun x => length x = b) (slices b l).
Proof.
  intros Hb. induction mb as [|mb IH]; intros l Hl.
  - destruct l; [|simpl in Hl; lia]. assert (slices b [] = []) as ->; [|simpl; auto]. unfold slices. simpl length. rewrite Nat.div_small by lia. reflexivity.
  - rewrite <- (firstn_skipn b l). assert (L1 : length (firstn b l) = b) by (rewrite firstn_length; simpl in Hl; lia).
    rewrite slices_cons by auto. destruct (IH (skipn b l)) as (E1 & E2 & E3); [rewrite skipn_length; simpl in Hl; lia|].
    cbn [concat length]. rewrite E1, E2. auto.
Qed.

Section Sh.
  Context (sh : nat -> list nat -> list nat) (Hsh : forall k l, Permutation (sh k l) l).
  Lemma flat_epochs_ok N mb k : 1 <= mb -> 1 <= N -> N mod mb = 0 -> forall inds calls, Permutation inds (seq 0 N) ->
    length (flat_epochs sh k (N / mb) inds calls) = k /\ Forall (epoch N mb) (flat_epochs sh k (N / mb) inds calls).
  Proof.
    intros Hm HN Hd. assert (E : N = mb * (N / mb)) by (apply Nat.div_exact; lia). assert (Hb : 1 <= N / mb) by (destruct (N / mb); lia).
    induction k as [|k IH]; intros inds calls HP; cbn [flat_epochs length]; [auto|].
    assert (HP' : Permutation (sh calls inds) (seq 0 N)) by (eapply perm_trans; [apply Hsh|exact HP]).
    destruct (IH (sh calls inds) (1 + calls) HP') as (I1 & I2). split; [lia|]. constructor; [|exact I2].
    destruct (slices_spec (N / mb) mb Hb (sh calls inds)) as (S1 & S2 & S3); [apply Permutation_length in HP'; rewrite seq_length in HP'; lia|].
    unfold epoch. rewrite S1. auto.
  Qed.
  Lemma env_epochs_ok e n mb k : 1 <= mb -> 1 <= e -> e mod mb = 0 -> forall envs calls, Permutation envs (seq 0 e) ->
    length (env_epochs sh k (e / mb) n envs calls) = k /\ Forall (env_epoch e n mb) (env_epochs sh k (e / mb) n envs calls).
  Proof.
    intros Hm HN Hd. assert (E : e = mb * (e / mb)) by (apply Nat.div_exact; lia). assert (Hb : 1 <= e / mb) by (destruct (e / mb); lia).
    induction k as [|k IH]; intros inds calls HP; cbn [env_epochs length]; [auto|].
    assert (HP' : Permutation (sh calls inds) (seq 0 e)) by (eapply perm_trans; [apply Hsh|exact HP]).
    destruct (IH (sh calls inds) (1 + calls) HP') as (I1 & I2). split; [lia|]. constructor; [|exact I2].
    destruct (slices_spec (e / mb) mb Hb (sh calls inds)) as (S1 & S2 & S3); [apply Permutation_length in HP'; rewrite seq_length in HP'; lia|].
    eexists. split; [|reflexivity]. unfold epoch. rewrite S1. auto.
  Qed.
End Sh.
Lemma blocks_seq n e : flat_map (fun i => seq (i * n) n) (seq 0 e) = seq 0 (e * n).
Proof.
  induction e as [|e IH]; [reflexivity|]. rewrite seq_S, flat_map_app, IH. simpl flat_map. rewrite app_nil_r. replace (S e * n) with (e * n + n) by (simpl; lia).
  rewrite seq_app. reflexivity.
Qed.
Lemma env_epoch_flat e n mb ep : 1 <= mb -> e mod mb = 0 -> env_epoch e n mb ep -> epoch (e * n) mb ep.
Proof.
  intros Hm Hd (g & (P & L & F) & ->). assert (E : e = mb * (e / mb)) by (apply Nat.div_exact; lia). split; [|split].
  - rewrite <- flat_map_concat_map. rewrite <- blocks_seq.
    assert (Q : forall l, flat_map (flat_map (fun i => seq (i * n) n)) l = flat_map (fun i => seq (i * n) n) (concat l)).
    { induction l as [|a r IH]; [reflexivity|]. simpl. rewrite flat_map_app, IH. reflexivity. }
    rewrite Q. apply Permutation_flat_map. exact P.
  - rewrite map_length. exact L.
  - apply Forall_map. eapply Forall_impl; [|exact F]. intros b Hb. cbv beta in *.
    assert (Q : forall l, length (flat_map (fun i => seq (i * n) n) l) = length l * n). { induction l as [|a r IH]; [reflexivity|]. simpl. rewrite app_length, seq_length, IH. reflexivity. }
    rewrite Q, Hb. apply (Nat.div_unique _ mb _ 0); lia || (rewrite Nat.add_0_r; rewrite E at 1; lia).
Qed.

(* ---- the learning rate of A2C ---- *)
Lemma lr_steps_spec k : forall sch sch' lr, lr_steps k sch = Some (sch', lr) ->
  1 <= k /\ sch' = mkSched (sstep sch + k) (sinit sch) (svals sch) (curve sch) /\
  lr = (sinit sch * curve sch (inject_Z (Z.of_nat (sstep sch + k - 1)) / inject_Z (Z.of_nat (svals sch))))%Q.
Proof.
  induction k as [|k IH]; intros sch sch' lr H; [discriminate H|]. cbn [lr_steps] in H. destruct k as [|k].
  - unfold sched_value, value_steps in H. destruct (Nat.eqb (svals sch) 0); [discriminate H|]. injection H as <- <-. split; [lia|]. split; [f_equal; lia|]. replace (sstep sch + 1 - 1) with (sstep sch) by lia. reflexivity.
  - destruct (sched_value sch) as [[s1 v]|] eqn:E; [|discriminate H]. cbn [bind fst] in H. apply IH in H. destruct H as (H1 & -> & ->).
    unfold sched_value, value_steps in E. destruct (Nat.eqb (svals sch) 0); [discriminate E|]. injection E as <- <-. simpl sstep. simpl sinit. simpl svals. simpl Sched_Model.curve. split; [lia|]. split; [f_equal; lia|].
    replace (sstep sch + S (S k) - 1) with (S (sstep sch) + S k - 1) by lia. reflexivity.
Qed.
Lemma lr_steps_total k sch : 1 <= k -> svals sch <> 0 -> exists sch' lr, lr_steps k sch = Some (sch', lr) /\ svals sch' = svals sch.
Proof.
  revert sch; induction k as [|k IH]; intros sch Hk Hs; [lia|]. cbn [lr_steps].
  assert (E : exists s1 v, sched_value sch = Some (s1, v) /\ svals s1 = svals sch).
  { unfold sched_value, value_steps. assert (Nat.eqb (svals sch) 0 = false) as -> by (apply Nat.eqb_neq; auto). do 2 eexists. split; reflexivity. }
  destruct E as (s1 & v & E & Ev). destruct k as [|k].
  - eauto.
  - rewrite E. cbn [bind fst]. destruct (IH s1 ltac:(lia) ltac:(congruence)) as (s2 & lr & -> & E2). do 2 eexists. split; [reflexivity|congruence].
Qed.

Section L.
  Context {St O A : Type} (enext : St -> A -> St) (rew : St -> A -> list Q) (obs_of : St -> O) (dones_of : St -> list bool)
          (act : nat -> O -> list bool -> A) (clip : A -> A)
          (ans : nat -> nat -> answer) (ev : nat -> nat -> Q).
  Notation rollout := (rollout enext rew obs_of dones_of act clip ans ev).
  Notation synced := (synced obs_of dones_of).
  Notation path := (path enext rew obs_of dones_of act clip).
  Notation after := (after enext clip).
  Notation transcript := (transcript enext clip).
  Notation seen := (seen enext obs_of dones_of clip).
  Notation calls := (calls ans ev).
  Notation run := (runner St O).
  Notation items := (list (item St O A)).
  Notation rows := (list (row O A)).
  Notation loop := (loop enext rew obs_of dones_of act clip ans ev).
  Notation a2c_updates := (a2c_updates enext rew obs_of dones_of act clip ans ev).
  Notation a2c_learn := (a2c_learn enext rew obs_of dones_of act clip ans ev).

  Definition stepA (e n : nat) (sch : scheduler) (nt : nat) (l : rows) (o : O * list bool) : option (scheduler * items) :=
    let* q := lr_steps (e * n) sch in let '(sch', lr) := q in Some (sch', [ITrain (Training nt lr l o [])]).
  Lemma a2c_loop e n k : forall (rs : run) c nt sch, a2c_updates k e n rs c nt sch = loop true false e n (stepA e n) k rs c nt sch.
  Proof.
    induction k as [|k IH]; intros rs c nt sch; [reflexivity|]. cbn [LN_Model.a2c_updates LN_Proofs.loop]. unfold signals.
    destruct (rollout false e n rs c nt) as [[[[[rs1 c1] nt1] its1] [l|]]|]; cbn [bind]; auto.
    unfold stepA at 1. destruct (lr_steps (e * n) sch) as [[s1 lr]|]; cbn [bind]; auto. rewrite IH.
    destruct (loop true false e n (stepA e n) k rs1 c1 nt1 s1) as [[[[? ?] ?] ?]|]; reflexivity.
  Qed.

  Lemma fm_ext_in {X Y} (f g : X -> list Y) l : (forall x, In x l -> f x = g x) -> flat_map f l = flat_map g l.
  Proof. intros H. induction l as [|a r IH]; [reflexivity|]. simpl. rewrite (H a (or_introl eq_refl)), IH; auto. intros x Hx. apply H. right; exact Hx. Qed.

  Lemma a2c_spec lr0 crv e n total reset (rs : run) c nt rs' c' nt' its : synced rs ->
    a2c_learn lr0 crv e n total reset rs c nt = Some (rs', c', nt', its) ->
    let nt0 := if reset then 0 else nt in
    exists u stopped rows outs,
      path (r_q rs) (r_env rs) rows /\ calls c (counts nt0 e (length rows)) = Some (c', outs) /\ ends n (total / (e * n)) u stopped outs /\
      its = transcript n u stopped (r_env rs) c rows outs (fun j =>
        [ITrain (Training (nt0 + e * n * S j) (lr0 * crv (inject_Z (Z.of_nat (S j * (e * n) - 1)) / inject_Z (Z.of_nat total)))%Q (part n j rows) (seen (r_env rs) rows (S j * n)) [])]) /\
      nt' = nt0 + e * length rows /\ r_env rs' = after (r_env rs) rows /\ (stopped = false -> synced rs').
  Proof.
    intros Sy H nt0. unfold LN_Model.a2c_learn in H. destruct (Nat.eqb_spec (e * n) 0) as [Z|Z]; [discriminate H|]. fold nt0 in H.
    destruct (a2c_updates (total / (e * n)) e n rs c nt0 (new_scheduler lr0 total crv)) as [[[[rs1 c1] nt1] its1]|] eqn:E; [|discriminate H]. cbn [bind] in H. injection H as <- <- <- <-.
    rewrite a2c_loop in E. apply loop_spec in E; [|destruct n; lia|exact Sy].
    destruct E as (u & stopped & rw & outs & upd & xs & P & C & En & -> & X0 & Xs & Ent & Ee & Eq & Sy').
    exists u, stopped, rw, outs. split; [exact P|]. split; [exact C|]. split; [exact En|].
    assert (K : forall j, j <= u -> xs j = mkSched (j * (e * n)) lr0 total crv).
    { induction j as [|j IH]; intros Hj; [exact X0|]. specialize (Xs j ltac:(lia)). unfold stepA in Xs. rewrite IH in Xs by lia.
      destruct (lr_steps (e * n) (mkSched (j * (e * n)) lr0 total crv)) as [[s1 lr]|] eqn:El; [|discriminate Xs]. cbn [bind] in Xs. apply lr_steps_spec in El. simpl in El.
      destruct El as (_ & -> & _). injection Xs as <- _. f_equal. lia. }
    split.
    { unfold LN_Spec.transcript. unfold signals. rewrite (calls_same _ _ _ _ _ _ C). rewrite <- !app_assoc. do 2 f_equal.
      apply fm_ext_in. intros j Hj. apply in_seq in Hj. f_equal. specialize (Xs j ltac:(lia)). unfold stepA in Xs. rewrite K in Xs by lia.
      destruct (lr_steps (e * n) (mkSched (j * (e * n)) lr0 total crv)) as [[s1 lr]|] eqn:El; [|discriminate Xs]. cbn [bind] in Xs. injection Xs as _ <-.
      apply lr_steps_spec in El. destruct El as (_ & _ & ->). cbn [sstep sinit svals Sched_Model.curve]. replace (j * (e * n) + e * n - 1) with (S j * (e * n) - 1) by lia. reflexivity. }
    split; [exact Ent|]. split; [exact Ee|]. intros F. apply Sy'. left; exact F.
  Qed.
  Lemma a2c_total lr0 crv e n total reset (rs : run) c nt : 1 <= e -> 1 <= n -> sound c -> exists r, a2c_learn lr0 crv e n total reset rs c nt = Some r.
  Proof.
    intros He Hn Hs. unfold LN_Model.a2c_learn. assert (e * n =? 0 = false) as -> by (apply Nat.eqb_neq; nia).
    destruct (Nat.eq_dec total 0) as [->|Ht].
    - rewrite Nat.div_0_l by nia. cbn. eauto.
    - rewrite a2c_loop. destruct (loop_total enext rew obs_of dones_of act clip ans ev true false e n (stepA e n) (fun sch => svals sch <> 0) (total / (e * n)) eq_refl) with (rs := rs) (c := c) (nt := if reset then 0 else nt) (x := new_scheduler lr0 total crv) as ([[[? ?] ?] ?] & ->); auto.
      + intros sch nt1 l o Hv. unfold stepA. destruct (lr_steps_total (e * n) sch ltac:(nia) Hv) as (s' & lr & -> & Ev). cbn [bind]. do 2 eexists. split; [reflexivity|congruence].
      + cbn. eauto.
  Qed.

  (* ---- PPO2 ---- *)
  Section PPO.
    Context (sh : nat -> list nat -> list nat).
    Notation ppo_updates := (ppo_updates enext rew obs_of dones_of act clip ans ev sh).
    Notation ppo_learn := (ppo_learn enext rew obs_of dones_of act clip ans ev sh).

    Definition epochs_of (recurrent : bool) (mb epochs e n calls : nat) : option (list (list (list nat))) :=
      if recurrent then if negb (e mod mb =? 0) then None else Some (env_epochs sh epochs ((e * n) / mb / n) n (seq 0 e) calls)
      else Some (flat_epochs sh epochs ((e * n) / mb) (seq 0 (e * n)) calls).
    Definition stepP (recurrent : bool) (mb epochs : nat) (lrf : Q -> Q) (nup e n : nat) (x : nat * nat) (nt : nat) (l : rows) (o : O * list bool) : option (nat * nat * items) :=
      let* eps := epochs_of recurrent mb epochs e n (snd x) in
      Some (1 + fst x, snd x + epochs, [ITrain (Training nt (lrf (1 - (inject_Z (Z.of_nat (fst x)) - 1) / inject_Z (Z.of_nat nup))%Q) l o eps)]).
    Lemma ppo_loop rc mb ep lrf nup e n k : forall u (rs : run) c nt calls,
      ppo_updates rc mb ep lrf nup u k e n rs c nt calls = loop (negb (mb =? 0) && ((e * n) mod mb =? 0)) true e n (stepP rc mb ep lrf nup e n) k rs c nt (u, calls).
    Proof.
      induction k as [|k IH]; intros u rs c nt calls; [reflexivity|]. cbn [LN_Model.ppo_updates LN_Proofs.loop]. unfold signals.
      match goal with |- (if mb =? 0 then None else if negb _ then None else ?x) = _ => replace (if mb =? 0 then None else if negb ((e * n) mod mb =? 0) then None else x)
        with (if negb (mb =? 0) && ((e * n) mod mb =? 0) then x else None) by (destruct (mb =? 0), ((e * n) mod mb =? 0); reflexivity) end.
      remember (negb (mb =? 0) && ((e * n) mod mb =? 0)) as okb eqn:Ek. destruct okb; [|reflexivity].
      destruct (rollout true e n rs c nt) as [[[[[rs1 c1] nt1] its1] [l|]]|]; cbn [bind]; auto.
      unfold stepP at 1. cbn [fst snd]. unfold epochs_of at 1.
      destruct (if rc then _ else _) as [eps|]; cbn [bind]; auto. rewrite IH.
      destruct (loop true true e n (stepP rc mb ep lrf nup e n) k rs1 c1 nt1 (1 + u, calls + ep)) as [[[[? ?] ?] ?]|]; reflexivity.
    Qed.

    Lemma ppo_spec rc mb ep lrf e n total reset (rs : run) c nt calls0 rs' c' nt' its : (forall k l, Permutation (sh k l) l) -> synced rs ->
      ppo_learn rc mb ep lrf e n total reset rs c nt calls0 = Some (rs', c', nt', its) ->
      let nt0 := if reset then 0 else nt in
      exists u stopped rows outs eps,
        path (r_q rs) (r_env rs) rows /\ calls c (counts nt0 e (length rows)) = Some (c', outs) /\ ends n (total / (e * n)) u stopped outs /\
        its = transcript n u stopped (r_env rs) c rows outs (fun j =>
          [ITrain (Training (nt0 + e * n * S j) (lrf (1 - (inject_Z (Z.of_nat (S j)) - 1) / inject_Z (Z.of_nat (total / (e * n))))%Q) (part n j rows) (seen (r_env rs) rows (S j * n)) (eps j))]) /\
        (forall j, j < u -> length (eps j) = ep /\ Forall (if rc then env_epoch e n mb else epoch (e * n) mb) (eps j)) /\
        nt' = nt0 + e * length rows /\ r_env rs' = after (r_env rs) rows /\ synced rs'.
    Proof.
      intros Hsh Sy H nt0. unfold LN_Model.ppo_learn in H. destruct (Nat.eqb_spec (e * n) 0) as [Z|Z]; [discriminate H|]. fold nt0 in H.
      set (nup := total / (e * n)) in *.
      destruct (ppo_updates rc mb ep lrf nup 1 nup e n rs c nt0 calls0) as [[[[rs1 c1] nt1] its1]|] eqn:E; [|discriminate H]. cbn [bind] in H. injection H as <- <- <- <-.
      rewrite ppo_loop in E. assert (Ok : 0 < nup -> mb <> 0 /\ (e * n) mod mb = 0).
      { intros Hp. destruct nup; [lia|]. cbn [LN_Proofs.loop] in E. destruct (mb =? 0) eqn:E1; [discriminate E|]. cbn [negb andb] in E. destruct ((e * n) mod mb =? 0) eqn:E2; [|discriminate E].
        apply Nat.eqb_neq in E1. apply Nat.eqb_eq in E2. auto. }
      apply loop_spec in E; [|destruct n; lia|exact Sy].
      destruct E as (u & stopped & rw & outs & upd & xs & P & C & En & -> & X0 & Xs & Ent & Ee & Eq & Sy').
      assert (Hu : u <= nup). { unfold ends in En. destruct stopped; lia. }
      assert (K : forall j, j <= u -> xs j = (S j, calls0 + j * ep)).
      { induction j as [|j IH]; intros Hj; [rewrite X0; f_equal; lia|]. specialize (Xs j ltac:(lia)). unfold stepP in Xs. rewrite IH in Xs by lia. cbn [fst snd] in Xs.
        destruct (epochs_of rc mb ep e n (calls0 + j * ep)) as [eps|]; [|discriminate Xs]. cbn [bind] in Xs. injection Xs as Xs _. rewrite <- Xs. f_equal. lia. }
      assert (Ks : forall j, j < u -> exists es, epochs_of rc mb ep e n (calls0 + j * ep) = Some es /\
                 upd j = [ITrain (Training (nt0 + e * n * S j) (lrf (1 - (inject_Z (Z.of_nat (S j)) - 1) / inject_Z (Z.of_nat nup))%Q) (part n j rw) (seen (r_env rs) rw (S j * n)) es)]).
      { intros j Hj. specialize (Xs j Hj). unfold stepP in Xs. rewrite K in Xs by lia. cbn [fst snd] in Xs.
        destruct (epochs_of rc mb ep e n (calls0 + j * ep)) as [es|]; [|discriminate Xs]. cbn [bind] in Xs. injection Xs as _ Xs. eauto. }
      exists u, stopped, rw, outs, (fun j => match epochs_of rc mb ep e n (calls0 + j * ep) with Some es => es | None => [] end).
      split; [exact P|]. split; [exact C|]. split; [exact En|]. split.
      { unfold LN_Spec.transcript. unfold signals. rewrite (calls_same _ _ _ _ _ _ C). rewrite <- !app_assoc. do 2 f_equal.
        apply fm_ext_in. intros j Hj. apply in_seq in Hj. f_equal. destruct (Ks j ltac:(lia)) as (es & -> & ->). reflexivity. }
      split.
      { intros j Hj. destruct (Ks j Hj) as (es & Es & _). rewrite Es. destruct (Ok ltac:(lia)) as (O1 & O2). unfold epochs_of in Es. destruct rc.
        - destruct (Nat.eqb_spec (e mod mb) 0) as [Em|Em]; [|discriminate Es]. cbn [negb] in Es. injection Es as <-.
          assert (e * n / mb / n = e / mb) as ->. { rewrite Nat.div_div by (destruct n; lia). rewrite (Nat.mul_comm mb n), Nat.mul_comm. apply Nat.div_mul_cancel_l; [lia|destruct n; lia]. }
          apply env_epochs_ok; auto; destruct e; try lia.
        - injection Es as <-. apply flat_epochs_ok; auto; lia. }
      split; [exact Ent|]. split; [exact Ee|]. apply Sy'. right; reflexivity.
    Qed.
    Lemma ppo_total rc mb ep lrf e n total reset (rs : run) c nt calls0 : 1 <= e -> 1 <= n -> 1 <= mb -> (e * n) mod mb = 0 -> (rc = true -> e mod mb = 0) -> sound c ->
      exists r, ppo_learn rc mb ep lrf e n total reset rs c nt calls0 = Some r.
    Proof.
      intros He Hn Hm Hd Hr Hs. unfold LN_Model.ppo_learn. assert (e * n =? 0 = false) as -> by (apply Nat.eqb_neq; nia).
      rewrite ppo_loop.
      destruct (loop_total enext rew obs_of dones_of act clip ans ev (negb (mb =? 0) && ((e * n) mod mb =? 0)) true e n (stepP rc mb ep lrf (total / (e * n)) e n) (fun _ => True) (total / (e * n)))
        with (rs := rs) (c := c) (nt := if reset then 0 else nt) (x := (1, calls0)) as ([[[? ?] ?] ?] & ->); auto.
      - rewrite Hd. destruct mb; [lia|reflexivity].
      - intros x nt1 l o _. unfold stepP, epochs_of. destruct rc.
        + rewrite Hr by reflexivity. cbn [Nat.eqb negb bind]. eauto.
        + cbn [bind]. eauto.
      - cbn. eauto.
    Qed.
    Lemma ppo_raises rc mb ep lrf e n total reset (rs : run) c nt calls0 : 1 <= total / (e * n) -> mb = 0 \/ (e * n) mod mb <> 0 ->
      ppo_learn rc mb ep lrf e n total reset rs c nt calls0 = None.
    Proof.
      intros Hp Hm. unfold LN_Model.ppo_learn. destruct (Nat.eqb_spec (e * n) 0) as [Z|Z]; [reflexivity|]. rewrite ppo_loop.
      destruct (total / (e * n)) as [|k]; [lia|]. cbn [LN_Proofs.loop].
      assert (negb (mb =? 0) && ((e * n) mod mb =? 0) = false) as ->; [|reflexivity].
      destruct (Nat.eqb_spec mb 0) as [E|E]; [reflexivity|]. destruct Hm as [Hm|Hm]; [lia|]. apply Nat.eqb_neq in Hm. rewrite Hm. reflexivity.
    Qed.
  End PPO.
End L.
