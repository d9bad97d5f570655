(** Theorems C78 about DQN.learn. *)
From Coq Require Import List Arith ZArith QArith Bool.
From Verif Require Import Base Sched_Model CB_Model CB_Spec Replay_Model LN_Spec DQ_Model DQ_Spec DQ_Proofs DQ_More DQ_Demo.
Import ListNotations.
Open Scope nat_scope.

Section T.
  Context {St O A : Type} (enext : St -> A -> St) (rew : St -> A -> Q) (obs_of : St -> O) (done_of : St -> bool) (ereset : St -> St) (vec : bool)
          (act : nat -> Q -> O -> A) (ans : nat -> nat -> answer) (ev : nat -> nat -> Q) (draws : nat -> nat -> nat).
  Notation dqn_learn := (dqn_learn enext rew obs_of done_of ereset vec act ans ev draws).
  Notation dpath := (dpath enext rew obs_of done_of ereset vec act).
  Notation step_log := (step_log enext done_of ereset vec).
  Notation calls := (calls ans ev).

(** C78: a learn of DQN is exactly this: on_training_start, on_rollout_start, a reset, total_timesteps
    steps of the environment (fewer if the callback answers False: then the run ends with that step),
    each followed by one call of the callback, by a reset if the episode is over, by an update if
    batch_size transitions are stored, learning_starts is passed and num_timesteps is a multiple of
    train_freq (between on_rollout_end and on_rollout_start), and by a copy to the target network
    likewise; on_training_end.  The steps form one path of the environment under the policy with the
    scheduled epsilon; an update uses the transitions in the sampled cells of a memory of the last
    buffer_size transitions. *)
Theorem C78_dqn p total reset s q c nt sf qf cf ntf its :
    dqn_learn p total reset s q c nt = Some (sf, qf, cf, ntf, its) ->
    let nt0 := if reset then 0 else nt in
    exists stopped rows outs,
      dpath (epsilon p total) q nt0 (ereset s) rows /\ calls c (counts nt0 1 (length rows)) = Some (cf, outs) /\ dends total stopped outs /\
      its = map DEv (notify TrainingStart c) ++ map DEv (notify RolloutStart c) ++ DReset s ::
            flat_map (step_log p total draws c nt0 (ereset s) stopped rows outs) (seq 0 (length rows)) ++ map DEv (notify TrainingEnd c) /\
      ntf = nt0 + length rows.
Proof. exact (dqn_spec enext rew obs_of done_of ereset vec act ans ev draws p total reset s q c nt sf qf cf ntf its). Qed.

(** C78: the times of the updates and of the copies to the target network, after the [m] steps that
    the callback did not end. *)
Theorem C78_times p total reset s q c nt sf qf cf ntf its : dqn_learn p total reset s q c nt = Some (sf, qf, cf, ntf, its) ->
    let nt0 := if reset then 0 else nt in
    exists m, nt0 <= ntf /\ (ntf - nt0 = m /\ m = total \/ ntf - nt0 = S m /\ m < total) /\
      train_times its = map (fun j => nt0 + (1 + j)) (filter (time_for p (p_freq p) nt0) (seq 0 m)) /\
      target_times its = map (fun j => nt0 + (1 + j)) (filter (time_for p (p_target p) nt0) (seq 0 m)).
Proof. exact (train_times_ok enext rew obs_of done_of ereset vec act ans ev draws p total reset s q c nt sf qf cf ntf its). Qed.

(** C78: every update uses batch_size transitions of this learn, each among the last buffer_size
    transitions before it (a second learn starts with an empty memory); beta is in [0.4, 1] with
    prioritized replay. *)
Theorem C78_data p total reset s q c nt sf qf cf ntf its : dqn_learn p total reset s q c nt = Some (sf, qf, cf, ntf, its) ->
    let nt0 := if reset then 0 else nt in
    exists rows, dpath (epsilon p total) q nt0 (ereset s) rows /\ length rows = ntf - nt0 /\
      forall t data beta, In (DTrain t data beta) its ->
        length data = p_batch p /\ nt0 < t <= ntf /\
        (forall x, In x data -> exists k, nth_error rows k = Some x /\ k < t - nt0 /\ t - nt0 <= k + p_size p) /\
        (p_prio p = false -> beta = None) /\ (p_prio p = true -> exists b, beta = Some b /\ ((4#10) <= b <= 1)%Q).
Proof. exact (data_ok enext rew obs_of done_of ereset vec act ans ev draws p total reset s q c nt sf qf cf ntf its). Qed.

(** C78: the epsilon of each step is the schedule at its num_timesteps. *)
Theorem C78_epsilon p total reset s q c nt sf qf cf ntf its : dqn_learn p total reset s q c nt = Some (sf, qf, cf, ntf, its) ->
    let nt0 := if reset then 0 else nt in
    forall s1 a e, In (DEnv s1 a e) its -> exists j, j < ntf - nt0 /\ e = epsilon p total (nt0 + j).
Proof. exact (eps_ok enext rew obs_of done_of ereset vec act ans ev draws p total reset s q c nt sf qf cf ntf its). Qed.

(** C78: a learn of DQN never raises if the callback does not, the frequencies and the memory size are
    positive and exploration_fraction*total_timesteps is at least 1. *)
Theorem C78_total p total reset s q c nt : total = 0 \/ horizon p total <> 0 -> 1 <= p_size p -> 1 <= p_freq p -> 1 <= p_target p -> sound c -> exists r, dqn_learn p total reset s q c nt = Some r.
Proof. exact (dqn_total enext rew obs_of done_of ereset vec act ans ev draws p total reset s q c nt). Qed.

(** C78: it always raises (ZeroDivisionError) if exploration_fraction*total_timesteps is below 1: with
    the default 0.1, for any total_timesteps from 1 to 9. *)
Theorem C78_short_raises p total reset s q c nt : 1 <= total -> total < 10 -> p_frac p = (1#10)%Q -> dqn_learn p total reset s q c nt = None.
Proof. exact (fun H1 H2 H3 => dqn_raises enext rew obs_of done_of ereset vec act ans ev draws p total reset s q c nt H1 (few_raise p total H3 H2)). Qed.

(** C78: no update at all takes place, silently, if the memory or the run is smaller than batch_size
    or if the run ends before learning_starts. *)
Theorem C78_idle p total reset s q c nt sf qf cf ntf its : dqn_learn p total reset s q c nt = Some (sf, qf, cf, ntf, its) ->
    p_size p < p_batch p \/ total < p_batch p \/ (if reset then 0 else nt) + total <= p_starts p -> train_times its = [] /\ target_times its = [].
Proof. exact (dqn_idle enext rew obs_of done_of ereset vec act ans ev draws p total reset s q c nt sf qf cf ntf its). Qed.

(** C78: a callback of the user sees on_rollout_end once per update and on_rollout_start once more: the
    last rollout is started and never ended. *)
Theorem C78_signals p total reset s q id n nt sf qf cf ntf its : dqn_learn p total reset s q (User id n) nt = Some (sf, qf, cf, ntf, its) ->
    length (filter (is_signal id RolloutEnd) its) = length (train_times its) /\ length (filter (is_signal id RolloutStart) its) = 1 + length (train_times its).
Proof. exact (signals_ok enext rew obs_of done_of ereset vec act ans ev draws p total reset s q id n nt sf qf cf ntf its). Qed.
End T.
Print Assumptions C78_dqn.
Print Assumptions C78_times.
Print Assumptions C78_data.
Print Assumptions C78_epsilon.
Print Assumptions C78_total.
Print Assumptions C78_short_raises.
Print Assumptions C78_idle.
Print Assumptions C78_signals.

(** C78: epsilon stays between exploration_final_eps and exploration_initial_eps and equals the final
    value from exploration_fraction*total_timesteps on (so a second learn with
    reset_num_timesteps=False need not explore again). *)
Theorem C78_epsilon_range p total nt : horizon p total <> 0 ->
  ((p_final p <= p_init p)%Q -> (p_final p <= epsilon p total nt <= p_init p)%Q) /\
  (horizon p total <= nt -> (epsilon p total nt == p_final p)%Q).
Proof. exact (fun H => conj (epsilon_range p total nt H) (epsilon_late p total nt H)). Qed.
Print Assumptions C78_epsilon_range.

(** C78: the number of steps after which epsilon has its final value is exploration_fraction*total_timesteps,
    rounded down. *)
Theorem C78_fraction p total : (0 <= p_frac p)%Q ->
  (inject_Z (Z.of_nat (horizon p total)) <= p_frac p * inject_Z (Z.of_nat total) < inject_Z (Z.of_nat (horizon p total)) + 1)%Q.
Proof. exact (horizon_floor p total). Qed.
Print Assumptions C78_fraction.

Example C78_run : exists sf qf cf ntf its, DQ_Model.dqn_learn q_next q_rew q_obs q_done q_reset false q_act (fun _ n => if n =? 9 then Stop else Go) (fun _ _ => 0%Q) (fun t i => t * i) q_par 12 true 3 0 (User 0 0) 7 = Some (sf, qf, cf, ntf, its) /\
  ntf = 9 /\ train_times its = [4; 6; 8] /\ target_times its = [6] /\ length (filter (is_signal 0 RolloutStart) its) = 4.
Proof. exact demo_dqn. Qed.
Example C78_horizon : horizon q_default 9 = 0 /\ horizon q_default 10 = 1 /\ horizon q_par 12 = 6.
Proof. exact demo_horizon. Qed.
