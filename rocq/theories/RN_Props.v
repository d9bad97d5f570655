(** C117: training runs from an input file. *)
From Coq Require Import Ascii String List Arith ZArith QArith Bool.
Import ListNotations.
Require Import Verif.IP_Model Verif.RN_Model Verif.RN_Spec Verif.RN_Proofs Verif.RN_Demo.
Open Scope list_scope. Open Scope nat_scope.

(** C117: every training run ends with exit status 1, also when all went well, and what the runner saves after the
    training is never written: no file _model_last.pkl exists. *)
Theorem C117_status_refuted : forall (V : Type) a m (card : list (text * V)) c w ncores n_steps trains,
  snd (runner a m card c w ncores n_steps trains) = 1 /\ absent ModelLast (fst (runner a m card c w ncores n_steps trains)).
Proof. exact @runner_exits. Qed.
Print Assumptions C117_status_refuted.

(** C117: A2C and PPO have trained on every whole rollout of the given steps when the last model is saved, but if
    the steps are a multiple of the rollout the process ends in the last one, which is not trained on. *)
Theorem C117_rollouts : forall (V : Type) a m (card : list (text * V)) c w ncores n_steps trains, a = A2C \/ a = PPO -> full_card a card -> 1 <= n_steps -> readable c w -> 1 <= total_timesteps c ->
  holds LastModel (rollout_rounds (n_envs_of ncores * n_steps) (total_timesteps c)) (fst (runner a m card c w ncores n_steps trains)).
Proof. exact @runner_rollouts. Qed.
Print Assumptions C117_rollouts.

(** C117: so a run of exactly one rollout saves an untrained model. *)
Theorem C117_trained_refuted : forall (V : Type) a m (card : list (text * V)) c w ncores n_steps trains, a = A2C \/ a = PPO -> full_card a card -> 1 <= n_steps -> readable c w -> total_timesteps c = n_envs_of ncores * n_steps ->
  holds LastModel 0 (fst (runner a m card c w ncores n_steps trains)).
Proof. exact @untrained. Qed.
Print Assumptions C117_trained_refuted.

(** C117: ACER stops at the given steps if the environments divide them, before it trains on the rollout it is in;
    otherwise it trains on one rollout more. *)
Theorem C117_acer : forall (V : Type) m (card : list (text * V)) c w ncores n_steps trains, full_card ACER card -> 1 <= n_steps -> readable c w -> 1 <= total_timesteps c ->
  holds LastModel (let more := if total_timesteps c mod n_envs_of ncores =? 0 then 0 else 1 in (total_timesteps c - 1) / (n_envs_of ncores * n_steps) + more) (fst (runner ACER m card c w ncores n_steps trains)).
Proof. exact @runner_acer. Qed.
Print Assumptions C117_acer.

(** C117: so it can step past the given number: to 27 with 20 given. *)
Theorem C117_past_refuted : In 27 (times (learn_events ACER 3 3 (fun _ => true) 20)) /\ holds LastModel 3 (fst (runner ACER MTrain (card_of ACER) c1 w1 3 3 (fun _ => true))).
Proof. exact past_demo. Qed.
Print Assumptions C117_past_refuted.

(** C117: DQN never trains: its runner asks for names that its card does not have and cannot be given. *)
Theorem C117_dqn_raises : forall (V : Type) m (card : list (text * V)) c w ncores n_steps trains, full_card DQN card -> runner DQN m card c w ncores n_steps trains = ([], 1).
Proof. exact @dqn_raises. Qed.
Print Assumptions C117_dqn_raises.

(** C117: if its runner got that far, it would have trained in all the steps but the last, of those in which it
    trains. *)
Theorem C117_dqn : forall m c w n_envs n_steps trains, readable c w -> 1 <= total_timesteps c ->
  holds LastModel (List.length (filter trains (seq 1 (total_timesteps c - 1)))) (fst (train DQN m c w n_envs n_steps trains)).
Proof. exact dqn_rounds. Qed.
Print Assumptions C117_dqn.

(** C117: the other algorithms get every value of their card that they ask for, under its name, ... *)
Theorem C117_arguments : forall (V : Type) a (card : list (text * V)), a <> DQN -> full_card a card -> exists d, arguments (passed a) card = Some d /\
  Forall2 (fun x y => fst x = fst y /\ dget (snd x) card = Some (snd y)) (passed a) d.
Proof. exact @arguments_given. Qed.
Print Assumptions C117_arguments.

(** C117: but some names are accepted in a card and change nothing. *)
Theorem C117_ignored_refuted : forall (V : Type) a, (forall k, In k (ignored a) -> In k (map fst (table (card_name a)))) /\
  forall c1 c2 : list (text * V), (forall k, ~ In k (ignored a) -> dget k c1 = dget k c2) -> arguments (passed a) c1 = arguments (passed a) c2.
Proof. intros V a. exact (conj (ignored_accepted a) (ignored_names a)). Qed.
Print Assumptions C117_ignored_refuted.

(** C117: the best model is the one of the check with the greatest mean reward, the first of equal ones, whatever
    fails in between; there is none exactly if no check could read a reward. *)
Theorem C117_best : forall (V : Type) a m (card : list (text * V)) c w ncores n_steps trains v, a <> DQN -> full_card a card ->
  (holds BestModel v (fst (runner a m card c w ncores n_steps trains)) <-> first_largest (readings c w (learn_events a (n_envs_of ncores) n_steps trains (total_timesteps c)) 0) v).
Proof. exact @runner_best. Qed.
Print Assumptions C117_best.

(** C117: a check is due at the multiples of check_freq and at the last step, ... *)
Theorem C117_checks : forall c t, check_freq c <> 0 -> (due c t = true <-> Nat.divide (check_freq c) t \/ t = total_timesteps c).
Proof. exact checks. Qed.
Print Assumptions C117_checks.

(** C117: of the mean of the last avg_step rewards, or of all if there are fewer. *)
Theorem C117_mean : forall n y, y <> [] -> 1 <= n -> tail_mean n y = Some (mean_of (skipn (List.length y - n) y)).
Proof. exact mean_last. Qed.
Print Assumptions C117_mean.

(** C117: with avg_step = 0 the mean is over all the rewards. *)
Theorem C117_mean_zero : forall y, y <> [] -> tail_mean 0 y = Some (mean_of y).
Proof. exact mean_zero. Qed.
Print Assumptions C117_mean_zero.

(** C117: the steps that are seen are the multiples of the number of environments, to the end of the last
    rollout. *)
Theorem C117_times : forall a n_envs n_steps trains total t, 1 <= n_envs -> 1 <= n_steps -> a <> DQN -> (In t (times (learn_events a n_envs n_steps trains total)) <-> exists i, 1 <= i /\ t = i * n_envs /\
  i * n_envs <= (match a with ACER => (total + n_envs * n_steps - 1) / (n_envs * n_steps) | _ => total / (n_envs * n_steps) end) * (n_envs * n_steps)).
Proof. exact step_times. Qed.
Print Assumptions C117_times.

(** C117: the frequency is raised to the next multiple of the environments, and then every multiple of it within
    the rollouts is a step with a check. *)
Theorem C117_frequency : forall ncores freq, 1 <= freq -> Nat.divide (n_envs_of ncores) (adjust ncores freq) /\ freq <= adjust ncores freq < freq + n_envs_of ncores.
Proof. exact adjust_least. Qed.
Print Assumptions C117_frequency.

(** C117: every multiple of the frequency within the whole rollouts is checked. *)
Theorem C117_every : forall a ncores n_steps trains avg total freq t0, a <> DQN -> 1 <= n_steps -> 1 <= freq -> 1 <= t0 -> t0 <= total / (n_envs_of ncores * n_steps) * (n_envs_of ncores * n_steps) ->
  Nat.divide (adjust ncores freq) t0 -> In t0 (times (learn_events a (n_envs_of ncores) n_steps trains total)) /\ due (Cb (adjust ncores freq) avg total) t0 = true.
Proof. exact every_check. Qed.
Print Assumptions C117_every.

(** C117: with check_freq = 0 a run that reaches the given steps saves no model at all, and no error is raised. *)
Theorem C117_zero_refuted : forall a m c w n_envs n_steps trains, check_freq c = 0 -> In (total_timesteps c) (times (learn_events a n_envs n_steps trains (total_timesteps c))) ->
  train a m c w n_envs n_steps trains = ([], 1).
Proof. exact zero_freq. Qed.
Print Assumptions C117_zero_refuted.
