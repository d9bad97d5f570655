(** Proofs about the optimization environment: the end-of-episode flag. *)
From Coq Require Import String List Arith ZArith QArith Bool Lia.
From Verif Require Import Base BaseFacts Space_Model Space_Spec Opt_Model Env_Model Env_Spec Env_Proofs Env_Disc.
Import ListNotations.
Open Scope nat_scope.

Lemma steps_acts acts : steps (map OStep acts) = length acts.
Proof. unfold steps. induction acts; simpl; auto. Qed.
Lemma steps_resets n : steps (repeat OReset n) = 0.
Proof. unfold steps. induction n; simpl; auto. Qed.
Lemma complete_steps L ops : complete L ops -> Nat.divide L (steps ops).
Proof.
  induction 1 as [n|ops acts n H IH E Hn].
  - rewrite steps_resets. exists 0. auto.
  - rewrite !steps_app, steps_acts, steps_resets, E, Nat.add_0_r. destruct IH as [k ->]. exists (S k). lia.
Qed.

Section Proofs.
Context (fit : list val -> Q) (set_order : list Z -> list Z)
  (act_sample : nat -> action) (obs_sample : nat -> list Q) (randint : nat -> Z -> Z -> Z) (c : econf).
Local Notation new := (env_new set_order act_sample obs_sample c).
Local Notation step := (env_step fit obs_sample randint c).
Local Notation run := (fun sp st ops => ofold (env_op fit act_sample obs_sample randint c sp) st ops).
Local Notation L := (ec_len c).

Lemma map_keeps sp a st v st1 : env_map obs_sample randint c sp a st = Some (v, st1) ->
  n_done st1 = n_done st /\ n_counter st1 = n_counter st.
Proof.
  unfold env_map. destruct (ec_meth c); [| |discriminate].
  - destruct (whole_action c sp a); [|discriminate]. cbn [bind]. intros H; inversion H; auto.
  - destruct sp; try discriminate. destruct a; try discriminate. unfold one_action.
    destruct (_ <? _).
    + destruct (nth_error values i); [|discriminate]. cbn [bind]. destruct (nth_error (env_dims _) _); [|discriminate]. cbn [bind].
      intros H; inversion H; auto.
    + cbn [bind]. intros H; inversion H; auto.
Qed.
Lemma step_tick sp st a r st' : step sp st a = Some (r, st') ->
  r_done r = n_done st' /\ n_done st' = (n_done st || (S (n_counter st) =? L))%bool /\
  n_counter st' = (if S (n_counter st) =? L then 0 else S (n_counter st)).
Proof.
  unfold env_step. destruct (env_map _ _ _ _ _ _) as [[v st1]|] eqn:M; [|discriminate]. cbn [bind fst snd].
  destruct (map_keeps _ _ _ _ _ M) as [-> ->]. destruct (env_decode _ _); [|discriminate]. cbn [bind].
  intros H. destruct (S (n_counter st) =? L); inversion H; subst; simpl; rewrite ?orb_true_r, ?orb_false_r; auto.
Qed.
Lemma reset_tick st o st' : env_reset act_sample obs_sample c st = Some (o, st') -> n_done st' = false /\ n_counter st' = n_counter st.
Proof. unfold env_reset. destruct (ec_meth c); intros H; inversion H; auto. Qed.

Definition due (ops : list eop) : Prop :=
  exists l1 a l2, ops = l1 ++ OStep a :: l2 /\ Forall (fun o => is_step o = true) l2 /\ Nat.divide L (S (steps l1)).

Lemma due_step ops a : due (ops ++ [OStep a]) <-> due ops \/ Nat.divide L (S (steps ops)).
Proof.
  split.
  - intros (l1 & a' & l2 & E & F & D). destruct l2 as [|o l2] using rev_ind.
    + apply app_inj_tail in E. destruct E as [-> _]. auto.
    + left. clear IHl2. apply Forall_app in F. destruct F as [F _]. rewrite app_comm_cons, app_assoc in E. apply app_inj_tail in E. destruct E as [-> _].
      exists l1, a', l2. auto.
  - intros [(l1 & a' & l2 & -> & F & D)|D].
    + exists l1, a', (l2 ++ [OStep a]). rewrite <- app_assoc. repeat split; auto. apply Forall_app. split; auto.
    + exists ops, a, []. auto.
Qed.
Lemma due_reset ops : ~ due (ops ++ [OReset]).
Proof.
  intros (l1 & a' & l2 & E & F & _). destruct l2 as [|o l2] using rev_ind.
  - apply app_inj_tail in E. destruct E; discriminate.
  - rewrite app_comm_cons, app_assoc in E. apply app_inj_tail in E. destruct E as [_ <-]. apply Forall_app in F. destruct F as [_ F].
    inversion F. discriminate.
Qed.
Lemma due_nil : ~ due [].
Proof. intros (l1 & a & l2 & E & _). destruct l1; discriminate. Qed.

Lemma new_tick sp st0 : new = Some (sp, st0) -> n_done st0 = false /\ n_counter st0 = 0.
Proof.
  unfold env_new. destruct (env_aspace _ _); [|discriminate]. cbn [bind]. destruct (env_reset _ _ _ _); [|discriminate]. cbn [bind].
  intros H. inversion H; auto.
Qed.

Lemma run_inv sp st0 : new = Some (sp, st0) -> 1 <= L -> forall ops st, run sp st0 ops = Some st ->
  n_counter st = steps ops mod L /\ (n_done st = true <-> due ops).
Proof.
  intros N P ops. destruct (new_tick _ _ N) as [D0 C0]. induction ops as [|o ops IH] using rev_ind; intros st R.
  - simpl in R. inversion R; subst. rewrite C0, D0. split; [symmetry; apply Nat.mod_0_l; lia|]. split; [discriminate|intros H; destruct (due_nil H)].
  - cbn beta in R, IH. rewrite ofold_snoc in R. destruct (ofold _ st0 ops) as [st1|] eqn:R1; [|discriminate].
    destruct (IH st1 eq_refl) as [C1 D1]. rewrite steps_app. destruct o as [a|]; simpl in R.
    + destruct (step sp st1 a) as [[r st2]|] eqn:S1; [|discriminate]. simpl in R. inversion R; subst st2.
      destruct (step_tick _ _ _ _ _ S1) as (T1 & T2 & T3). rewrite due_step, <- D1, T3, T2, C1. change (steps [OStep a]) with 1.
      pose proof (Nat.div_mod (steps ops) L ltac:(lia)) as DM. pose proof (Nat.mod_upper_bound (steps ops) L ltac:(lia)).
      rewrite orb_true_iff. destruct (Nat.eqb_spec (S (steps ops mod L)) L) as [E|E].
      * split; [apply Nat.mod_unique with (q := S (steps ops / L)); nia|]. split; auto. intros _. right. exists (S (steps ops / L)). nia.
      * split; [apply Nat.mod_unique with (q := steps ops / L); nia|]. split; [intros [H0|H0]; auto; discriminate|]. intros [H0|[k Hk]]; auto.
        exfalso. apply E. assert (k = S (steps ops / L)) by nia. subst. nia.
    + destruct (env_reset _ _ _ _) as [[ob st2]|] eqn:S1; [|discriminate]. simpl in R. inversion R; subst st2.
      destruct (reset_tick _ _ _ S1) as [T1 T2]. rewrite T1, T2, C1. change (steps [OReset]) with 0. rewrite Nat.add_0_r. split; auto.
      split; [discriminate|]. intros H. destruct (due_reset _ H).
Qed.

Theorem done_spec sp st0 : new = Some (sp, st0) -> 1 <= L ->
  forall ops st a r st', run sp st0 ops = Some st -> step sp st a = Some (r, st') ->
  (r_done r = true <->
   exists l1 a' l2, ops ++ [OStep a] = l1 ++ OStep a' :: l2 /\ Forall (fun o => is_step o = true) l2 /\ Nat.divide L (S (steps l1))).
Proof.
  intros N P ops st a r st' R S1. destruct (step_tick _ _ _ _ _ S1) as (T1 & _). rewrite T1.
  assert (R' : run sp st0 (ops ++ [OStep a]) = Some st') by (cbn beta; rewrite ofold_snoc, R; simpl; rewrite S1; reflexivity).
  apply (run_inv sp st0 N P _ _ R').
Qed.

(** Flags within one stretch of steps after a reset or at the start. *)
Lemma stretch sp st0 : new = Some (sp, st0) -> 1 <= L -> forall ops acts st a r st',
  (ops = [] \/ exists ops0, ops = ops0 ++ [OReset]) ->
  run sp st0 (ops ++ map OStep acts) = Some st -> step sp st a = Some (r, st') ->
  (r_done r = true <-> exists k, k <= length acts /\ Nat.divide L (S (steps ops + k))).
Proof.
  intros N P ops acts st a r st' H R S1. rewrite (done_spec sp st0 N P _ _ _ _ _ R S1). rewrite <- app_assoc.
  assert (G : forall (l : list action) a0, (exists l1 a' l2, ops ++ map OStep l ++ [OStep a0] = l1 ++ OStep a' :: l2 /\ Forall (fun o => is_step o = true) l2 /\ Nat.divide L (S (steps l1)))
     <-> exists k, k <= length l /\ Nat.divide L (S (steps ops + k))).
  { clear - H. intros l. induction l as [|x l IH] using rev_ind; intros a0.
    - simpl. change (exists l1 a' l2, ops ++ [OStep a0] = l1 ++ OStep a' :: l2 /\ Forall (fun o => is_step o = true) l2 /\ Nat.divide L (S (steps l1)))
        with (due (ops ++ [OStep a0])). rewrite due_step. split.
      + intros [D|D]; [|exists 0; rewrite Nat.add_0_r; auto]. exfalso. destruct H as [->|[ops0 ->]]; [destruct (due_nil D)|destruct (due_reset _ D)].
      + intros (k & K & D). assert (k = 0) by lia. subst. rewrite Nat.add_0_r in D. auto.
    - rewrite map_app, !app_assoc. cbn [map].
      change (due ((ops ++ map OStep l ++ [OStep x]) ++ [OStep a0]) <-> exists k, k <= length (l ++ [x]) /\ Nat.divide L (S (steps ops + k))) ||
      change (exists l1 a' l2, ((ops ++ map OStep l) ++ [OStep x]) ++ [OStep a0] = l1 ++ OStep a' :: l2 /\ Forall (fun o => is_step o = true) l2 /\ Nat.divide L (S (steps l1)))
        with (due (((ops ++ map OStep l) ++ [OStep x]) ++ [OStep a0])).
      rewrite due_step, <- app_assoc. unfold due. rewrite IH, app_length. rewrite !steps_app, steps_acts. change (steps [OStep x]) with 1. simpl. split.
      + intros [(k & K & D)|D]; [exists k; split; auto; lia|exists (length l + 1); split; auto].
      + intros (k & K & D). destruct (Nat.eq_dec k (length l + 1)) as [->|NE]; [right; auto|left; exists k; split; auto; lia]. }
  apply G.
Qed.

Lemma complete_shape ops : complete L ops -> ops = [] \/ exists ops0, ops = ops0 ++ [OReset].
Proof.
  assert (G : forall n, 1 <= n -> exists l, repeat OReset n = l ++ [OReset]).
  { intros n Hn. exists (repeat OReset (n - 1)). replace n with (n - 1 + 1) at 1 by lia. rewrite repeat_app. reflexivity. }
  intros H. destruct H as [n|ops acts n H E Hn].
  - destruct n; [left; reflexivity|right; apply G; lia].
  - right. destruct (G n Hn) as [l ->]. exists (ops ++ map OStep acts ++ l). rewrite <- !app_assoc. reflexivity.
Qed.

Theorem episode_exact sp st0 : new = Some (sp, st0) -> 1 <= L ->
  forall ops acts st a r st', complete L ops -> length acts < L ->
  run sp st0 (ops ++ map OStep acts) = Some st -> step sp st a = Some (r, st') ->
  r_done r = (S (length acts) =? L).
Proof.
  intros N P ops acts st a r st' C K R S1. pose proof (stretch sp st0 N P ops acts st a r st' (complete_shape _ C) R S1) as I.
  destruct (complete_steps _ _ C) as [q Hq]. destruct (Nat.eqb_spec (S (length acts)) L) as [E|E].
  - apply I. exists (length acts). split; auto. exists (S q). nia.
  - destruct (r_done r); auto. exfalso. destruct I as [I _]. destruct (I eq_refl) as (k & K1 & [q' Hq']). 
    assert (q' = S q) by nia. subst. nia.
Qed.

(** After an episode left early the next one is short. *)
Theorem episode_early sp st0 : new = Some (sp, st0) -> 1 <= L ->
  forall ops cut n acts st a r st', complete L ops -> 1 <= length cut < L -> 1 <= n -> length acts < L ->
  run sp st0 (ops ++ map OStep cut ++ repeat OReset n ++ map OStep acts) = Some st -> step sp st a = Some (r, st') ->
  (r_done r = true <-> L - length cut <= S (length acts)).
Proof.
  intros N P ops cut n acts st a r st' C K Hn KA R S1. 
  rewrite !app_assoc in R. 
  assert (SH : (ops ++ map OStep cut) ++ repeat OReset n = [] \/ exists ops0, (ops ++ map OStep cut) ++ repeat OReset n = ops0 ++ [OReset]).
  { right. replace n with (n - 1 + 1) by lia. rewrite repeat_app, !app_assoc. eexists. reflexivity. }
  rewrite (stretch sp st0 N P _ acts st a r st' SH R S1). rewrite !steps_app, steps_acts, steps_resets.
  destruct (complete_steps _ _ C) as [q Hq]. rewrite Hq. split.
  - intros (k & K1 & [q' Hq']). assert (S q <= q') by nia. nia.
  - intros H. exists (L - length cut - 1). split; [lia|]. exists (S q). nia.
Qed.

Theorem never_done sp st0 : new = Some (sp, st0) -> L = 0 ->
  forall ops st a r st', run sp st0 ops = Some st -> step sp st a = Some (r, st') -> r_done r = false.
Proof.
  intros N P ops st a r st' R S1. destruct (new_tick _ _ N) as [D0 C0].
  assert (G : forall ops st, run sp st0 ops = Some st -> n_done st = false).
  { clear - D0 P. intros ops. induction ops as [|o ops IH] using rev_ind; intros st R; [simpl in R; congruence|].
    cbn beta in R, IH. rewrite ofold_snoc in R. destruct (ofold _ st0 ops) as [st1|]; [|discriminate]. specialize (IH _ eq_refl).
    destruct o as [a|]; simpl in R.
    - destruct (step sp st1 a) as [[r st2]|] eqn:S1; [|discriminate]. inversion R; subst. destruct (step_tick _ _ _ _ _ S1) as (_ & -> & _).
      rewrite IH, P. reflexivity.
    - destruct (env_reset _ _ _ _) as [[ob st2]|] eqn:S1; [|discriminate]. inversion R; subst. apply (reset_tick _ _ _ S1). }
  destruct (step_tick _ _ _ _ _ S1) as (-> & -> & _). rewrite (G _ _ R), P. reflexivity.
Qed.
End Proofs.
