(** Theorems C76 and C77 about the training loops of A2C/ACKTR, PPO2 and ACER. *)
From Coq Require Import List Arith ZArith QArith Bool Permutation.
From Verif Require Import Base Sched_Model CB_Model CB_Spec LN_Model LN_Spec LN_Proofs LN_Algs LN_Acer LN_More LN_Demo.
Import ListNotations.
Open Scope nat_scope.

Section T.
  Context {St O A : Type} (enext : St -> A -> St) (rew : St -> A -> list Q) (obs_of : St -> O) (dones_of : St -> list bool)
          (act : nat -> O -> list bool -> A) (clip : A -> A)
          (ans : nat -> nat -> answer) (ev : nat -> nat -> Q).
  Notation synced := (synced obs_of dones_of).
  Notation path := (path enext rew obs_of dones_of act clip).
  Notation after := (after enext clip).
  Notation transcript := (transcript enext clip).
  Notation seen := (seen enext obs_of dones_of clip).
  Notation calls := (calls ans ev).
  Notation a2c_learn := (a2c_learn enext rew obs_of dones_of act clip ans ev).
  Notation ppo_learn := (ppo_learn enext rew obs_of dones_of act clip ans ev).
  Notation acer_learn := (acer_learn enext rew obs_of dones_of act clip ans ev).

(** C76: a learn of A2C or ACKTR is exactly this: on_training_start; total_timesteps // (n_envs*n_steps)
    times on_rollout_start, n_steps steps of the environment each followed by one call of the
    callback, on_rollout_end and one update with exactly these steps; on_training_end.  If the
    callback answers False the run stops after that step, without a further update but with
    on_rollout_end and on_training_end.  The steps of all rollouts form one path of the environment
    under the policy; num_timesteps grows by n_envs with each of them; the learning rate is the
    schedule at the last sample of the update. *)
Theorem C76_a2c lr0 crv e n total reset (rs : runner St O) c nt rs' c' nt' its : synced rs ->
    a2c_learn lr0 crv e n total reset rs c nt = Some (rs', c', nt', its) ->
    let nt0 := if reset then 0 else nt in
    exists u stopped rows outs,
      path (r_q rs) (r_env rs) rows /\ calls c (counts nt0 e (length rows)) = Some (c', outs) /\ ends n (total / (e * n)) u stopped outs /\
      its = transcript n u stopped (r_env rs) c rows outs (fun j =>
        [ITrain (Training (nt0 + e * n * S j) (lr0 * crv (inject_Z (Z.of_nat (S j * (e * n) - 1)) / inject_Z (Z.of_nat total)))%Q (part n j rows) (seen (r_env rs) rows (S j * n)) [])]) /\
      nt' = nt0 + e * length rows /\ r_env rs' = after (r_env rs) rows /\ (stopped = false -> synced rs').
Proof. exact (a2c_spec enext rew obs_of dones_of act clip ans ev lr0 crv e n total reset rs c nt rs' c' nt' its). Qed.

(** C76: hence every update of A2C uses n_steps consecutive steps, no step is used twice, none is
    skipped and none comes from a stale observation. *)
Theorem C76_a2c_steps lr0 crv e n total reset (rs : runner St O) c nt rs' c' nt' its : synced rs ->
    a2c_learn lr0 crv e n total reset rs c nt = Some (rs', c', nt', its) ->
    path (r_q rs) (r_env rs) (concat (map t_rows (trainings its))) /\ Forall (fun t => length (t_rows t) = n) (trainings its) /\ length (trainings its) <= total / (e * n).
Proof. exact (a2c_used enext rew obs_of dones_of act clip ans ev lr0 crv e n total reset rs c nt rs' c' nt' its). Qed.

(** C76: a learn of A2C or ACKTR never raises if the callback does not. *)
Theorem C76_a2c_total lr0 crv e n total reset (rs : runner St O) c nt : 1 <= e -> 1 <= n -> sound c -> exists r, a2c_learn lr0 crv e n total reset rs c nt = Some r.
Proof. exact (a2c_total enext rew obs_of dones_of act clip ans ev lr0 crv e n total reset rs c nt). Qed.

(** C76: with the linear schedule the learning rates of A2C and ACKTR are positive and at most the
    initial one. *)
Theorem C76_a2c_rate lr0 e n total reset (rs : runner St O) c nt rs' c' nt' its : (0 < lr0)%Q -> synced rs ->
    a2c_learn lr0 linear_schedule e n total reset rs c nt = Some (rs', c', nt', its) -> Forall (fun t => (0 < t_lr t <= lr0)%Q) (trainings its).
Proof. exact (a2c_linear_rate enext rew obs_of dones_of act clip ans ev lr0 e n total reset rs c nt rs' c' nt' its). Qed.

(** C76: a learn of A2C, ACKTR or PPO2 with total_timesteps below n_envs*n_steps makes no step and no
    update, silently. *)
Theorem C76_short lr0 crv sh rc mb ep lrf e n total reset (rs : runner St O) c nt k : e * n <> 0 -> total < e * n ->
    a2c_learn lr0 crv e n total reset rs c nt = Some (rs, c, if reset then 0 else nt, map IEv (notify TrainingStart c) ++ map IEv (notify TrainingEnd c)) /\
    ppo_learn sh rc mb ep lrf e n total reset rs c nt k = Some (rs, c, if reset then 0 else nt, map IEv (notify TrainingStart c) ++ map IEv (notify TrainingEnd c)).
Proof. exact (fun H1 H2 => conj (a2c_short enext rew obs_of dones_of act clip ans ev lr0 crv e n total reset rs c nt H1 H2) (ppo_short enext rew obs_of dones_of act clip ans ev sh rc mb ep lrf e n total reset rs c nt k H1 H2)). Qed.

(** C76: a learn of PPO2 is the same with noptepochs epochs per update and the learning rate a
    function of the fraction of updates left; after an early stop too the next learn starts from the
    current observation. *)
Theorem C76_ppo sh rc mb ep lrf e n total reset (rs : runner St O) c nt calls0 rs' c' nt' its : (forall k l, Permutation (sh k l) l) -> synced rs ->
    ppo_learn sh rc mb ep lrf e n total reset rs c nt calls0 = Some (rs', c', nt', its) ->
    let nt0 := if reset then 0 else nt in
    exists u stopped rows outs eps,
      path (r_q rs) (r_env rs) rows /\ calls c (counts nt0 e (length rows)) = Some (c', outs) /\ ends n (total / (e * n)) u stopped outs /\
      its = transcript n u stopped (r_env rs) c rows outs (fun j =>
        [ITrain (Training (nt0 + e * n * S j) (lrf (1 - (inject_Z (Z.of_nat (S j)) - 1) / inject_Z (Z.of_nat (total / (e * n))))%Q) (part n j rows) (seen (r_env rs) rows (S j * n)) (eps j))]) /\
      (forall j, j < u -> length (eps j) = ep /\ Forall (if rc then env_epoch e n mb else epoch (e * n) mb) (eps j)) /\
      nt' = nt0 + e * length rows /\ r_env rs' = after (r_env rs) rows /\ synced rs'.
Proof. exact (ppo_spec enext rew obs_of dones_of act clip ans ev sh rc mb ep lrf e n total reset rs c nt calls0 rs' c' nt' its). Qed.

(** C76: every epoch of PPO2 uses every sample of the rollout exactly once, in nminibatches
    minibatches of equal size (also for recurrent policies), and the fraction is in (0, 1]. *)
Theorem C76_ppo_steps sh rc mb ep lrf e n total reset (rs : runner St O) c nt k rs' c' nt' its : (forall k l, Permutation (sh k l) l) -> synced rs ->
    ppo_learn sh rc mb ep lrf e n total reset rs c nt k = Some (rs', c', nt', its) ->
    path (r_q rs) (r_env rs) (concat (map t_rows (trainings its))) /\
    Forall (fun t => length (t_rows t) = n /\ length (t_epochs t) = ep /\ Forall (epoch (e * n) mb) (t_epochs t) /\ exists f, (0 < f <= 1)%Q /\ t_lr t = lrf f) (trainings its) /\
    length (trainings its) <= total / (e * n).
Proof. exact (ppo_used enext rew obs_of dones_of act clip ans ev sh rc mb ep lrf e n total reset rs c nt k rs' c' nt' its). Qed.

(** C76: PPO2 raises in its first update if nminibatches does not divide n_envs*n_steps, and never
    otherwise (recurrent policies: if it also divides n_envs). *)
Theorem C76_ppo_total sh rc mb ep lrf e n total reset (rs : runner St O) c nt k :
    (1 <= e -> 1 <= n -> 1 <= mb -> (e * n) mod mb = 0 -> (rc = true -> e mod mb = 0) -> sound c -> exists r, ppo_learn sh rc mb ep lrf e n total reset rs c nt k = Some r) /\
    (1 <= total / (e * n) -> mb = 0 \/ (e * n) mod mb <> 0 -> ppo_learn sh rc mb ep lrf e n total reset rs c nt k = None).
Proof. exact (conj (ppo_total enext rew obs_of dones_of act clip ans ev sh rc mb ep lrf e n total reset rs c nt k) (ppo_raises enext rew obs_of dones_of act clip ans ev sh rc mb ep lrf e n total reset rs c nt k)). Qed.

(** C77: a learn of ACER is exactly this: ceil(total_timesteps / (n_envs*n_steps)) rollouts as for A2C,
    each followed by one update with its steps and, once replay_start // n_steps rollouts are stored,
    by Poisson-many updates that take for each environment the part of one stored rollout; the memory
    holds the last buffer_size // n_steps rollouts of this learn; the learning rate is the schedule
    at num_timesteps.  With buffer_size < n_steps and a positive replay_ratio no update succeeds. *)
Theorem C77_acer pois draws lr0 crv ratio size start e n total reset (rs : runner St O) c nt rs' c' nt' its : synced rs ->
    acer_learn pois draws lr0 crv ratio size start e n total reset rs c nt = Some (rs', c', nt', its) ->
    let nt0 := if reset then 0 else nt in
    exists u stopped rows outs,
      path (r_q rs) (r_env rs) rows /\ calls c (counts nt0 e (length rows)) = Some (c', outs) /\ ends n ((total + e * n - 1) / (e * n)) u stopped outs /\
      (let lr j := (lr0 * crv (inject_Z (Z.of_nat (nt0 + e * n * S j)) / inject_Z (Z.of_nat total)))%Q in
       let stored j := (part n j rows, seen (r_env rs) rows (S j * n)) in
       its = transcript n u stopped (r_env rs) c rows outs (fun j =>
         ITrain (Training (nt0 + e * n * S j) (lr j) (fst (stored j)) (snd (stored j)) []) ::
         replayed pois draws start e n (size / n) stored ratio (nt0 + e * n * S j) (lr j) j)) /\
      (ratio = true -> size < n -> u = 0) /\
      nt' = nt0 + e * length rows /\ r_env rs' = after (r_env rs) rows /\ (stopped = false -> synced rs').
Proof. exact (acer_spec enext rew obs_of dones_of act clip ans ev pois draws lr0 crv ratio size start e n total reset rs c nt rs' c' nt' its). Qed.

(** C77: the updates of ACER use every step once and in order. *)
Theorem C77_acer_steps pois draws lr0 crv ratio size start e n total reset (rs : runner St O) c nt rs' c' nt' its : synced rs ->
    acer_learn pois draws lr0 crv ratio size start e n total reset rs c nt = Some (rs', c', nt', its) ->
    path (r_q rs) (r_env rs) (concat (map t_rows (trainings its))) /\ Forall (fun t => length (t_rows t) = n) (trainings its) /\ length (trainings its) <= (total + e * n - 1) / (e * n).
Proof. exact (acer_used enext rew obs_of dones_of act clip ans ev pois draws lr0 crv ratio size start e n total reset rs c nt rs' c' nt' its). Qed.

(** C77: the number of updates from the memory; none at all if replay_start asks for more rollouts
    than the memory can hold. *)
Theorem C77_replays pois draws lr0 crv ratio size start e n total reset (rs : runner St O) c nt rs' c' nt' its : synced rs ->
    acer_learn pois draws lr0 crv ratio size start e n total reset rs c nt = Some (rs', c', nt', its) ->
    (ratio = false \/ size / n < start / n -> replays its = []) /\
    (ratio = true -> length (replays its) = list_sum (map (fun j => if start / n <=? min (S j) (size / n) then pois j else 0) (seq 0 (length (trainings its))))).
Proof. exact (acer_replays enext rew obs_of dones_of act clip ans ev pois draws lr0 crv ratio size start e n total reset rs c nt rs' c' nt' its). Qed.

(** C77: a learn of ACER that is not stopped makes at least total_timesteps steps and fewer than one
    batch more. *)
Theorem C77_overshoot pois draws lr0 crv ratio size start e n total reset (rs : runner St O) c nt rs' c' nt' its : synced rs ->
    acer_learn pois draws lr0 crv ratio size start e n total reset rs c nt = Some (rs', c', nt', its) ->
    length (trainings its) = (total + e * n - 1) / (e * n) ->
    (if reset then 0 else nt) + total <= nt' /\ nt' < (if reset then 0 else nt) + total + e * n.
Proof. exact (acer_overshoot enext rew obs_of dones_of act clip ans ev pois draws lr0 crv ratio size start e n total reset rs c nt rs' c' nt' its). Qed.

(** C77: that ACER learns with a positive rate is refuted for its default linear schedule: the rate of
    the last update of every learn that is not stopped is at most 0, and negative (gradient ascent)
    if the batch size does not divide total_timesteps. *)
Theorem C77_rate_refuted pois draws lr0 ratio size start e n total (rs : runner St O) c nt rs' c' nt' its : (0 < lr0)%Q -> synced rs ->
    acer_learn pois draws lr0 linear_schedule ratio size start e n total true rs c nt = Some (rs', c', nt', its) ->
    length (trainings its) = (total + e * n - 1) / (e * n) -> 1 <= total ->
    exists t, nth_error (trainings its) (length (trainings its) - 1) = Some t /\ (t_lr t <= 0)%Q /\ (total mod (e * n) <> 0 -> (t_lr t < 0)%Q).
Proof. exact (acer_linear_rate enext rew obs_of dones_of act clip ans ev pois draws lr0 ratio size start e n total rs c nt rs' c' nt' its). Qed.

(** C77: ... and a second learn with reset_num_timesteps=False that is not longer than what was done
    before uses negative rates only. *)
Theorem C77_rate_again_refuted pois draws lr0 ratio size start e n total (rs : runner St O) c nt rs' c' nt' its : (0 < lr0)%Q -> synced rs ->
    acer_learn pois draws lr0 linear_schedule ratio size start e n total false rs c nt = Some (rs', c', nt', its) -> total <= nt ->
    Forall (fun t => (t_lr t < 0)%Q) (trainings its).
Proof. exact (acer_linear_again enext rew obs_of dones_of act clip ans ev pois draws lr0 ratio size start e n total rs c nt rs' c' nt' its). Qed.

End T.
Print Assumptions C76_a2c.
Print Assumptions C76_a2c_steps.
Print Assumptions C76_a2c_total.
Print Assumptions C76_a2c_rate.
Print Assumptions C76_short.
Print Assumptions C76_ppo.
Print Assumptions C76_ppo_steps.
Print Assumptions C76_ppo_total.
Print Assumptions C77_acer.
Print Assumptions C77_acer_steps.
Print Assumptions C77_replays.
Print Assumptions C77_overshoot.
Print Assumptions C77_rate_refuted.
Print Assumptions C77_rate_again_refuted.

(** C77: the cell of the memory that is read after update number [j] holds a rollout of this learn
    that is at most size - 1 updates old. *)
Theorem C77_recent sz j i : 1 <= sz -> in_cell sz j i <= j /\ j < in_cell sz j i + sz.
Proof. exact (fun H => conj (in_cell_le sz j i) (in_cell_recent sz j i H)). Qed.
Print Assumptions C77_recent.

(** C76: that a learn of A2C always trains on the current observation is refuted after an early
    stop: the runner keeps the observation from before the last step, and the first action of the
    next learn is chosen for it although the environment is one step further. *)
Theorem C76_stale_refuted : exists (ans : nat -> nat -> answer) rs1 c1 nt1 its1 rs2 c2 nt2 its2,
  synced d_obs d_dones d_run /\
  a2c_learn d_next d_rew d_obs d_dones d_act d_clip ans (fun _ _ => 0%Q) 1 linear_schedule 1 2 4 true d_run (User 0 0) 0 = Some (rs1, c1, nt1, its1) /\
  a2c_learn d_next d_rew d_obs d_dones d_act d_clip ans (fun _ _ => 0%Q) 1 linear_schedule 1 2 4 true rs1 (User 1 0) nt1 = Some (rs2, c2, nt2, its2) /\
  exists t r, In t (trainings its2) /\ hd_error (t_rows t) = Some r /\ hd_error (filter (fun i => match i with IEnv _ _ => true | _ => false end) its2) = Some (IEnv (r_env rs1) (w_act r)) /\ w_obs r <> d_obs (r_env rs1).
Proof. exact stale_bad. Qed.
Print Assumptions C76_stale_refuted.
