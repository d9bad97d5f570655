(** Model of DQN.learn (neorl/rl/baselines/deepq/dqn.py:149-325): exploration, callbacks, the replay
    memory (Replay_Model), the times and the data of the updates and of the target network updates.

    The environment is an arbitrary state machine: [enext], [rew], [done_of], [obs_of] what a step does
    and returns, [ereset] a reset.  [vec]: the environment is a (wrapped) VecEnv, which resets itself
    (dqn.py:243-244).  The policy is an arbitrary function of the number of queries so far, epsilon and
    the observation.  param_noise is False (dqn.py:61).  Sampled indices are arbitrary, reduced modulo
    the number of stored transitions (uniform or prioritized, C04-C06); priorities, the normalisation of
    observations by VecNormalize, HER, logging and what an update computes are not modelled.
    An exception is [None]. *)
From Coq Require Import List Arith ZArith QArith Qround Bool.
From Verif Require Import Base Opt_Model Sched_Model CB_Model Replay_Model.
Import ListNotations.
Open Scope nat_scope.

(** What happens during learn: a step (state, action, epsilon), a reset, an event of a callback, an
    update (num_timesteps, the sampled transitions, beta if prioritized), an update of the target. *)
Inductive ditem (S O A : Type) : Type :=
| DEnv (s : S) (a : A) (eps : Q)
| DReset (s : S)
| DEv (e : event)
| DTrain (nt : nat) (data : list (@transition O A)) (beta : option Q)
| DTarget (nt : nat).
Arguments DEnv {S O A}. Arguments DReset {S O A}. Arguments DEv {S O A}. Arguments DTrain {S O A}. Arguments DTarget {S O A}.

(** The parameters of the model: exploration_fraction, eps_init, eps_final, buffer_size, batch_size,
    learning_starts, train_freq, target_network_update_freq, prioritized_replay. *)
Record dparams : Type := DParams {
  p_frac : Q; p_init : Q; p_final : Q; p_size : nat; p_batch : nat; p_starts : nat; p_freq : nat; p_target : nat; p_prio : bool }.

(** dqn.py:180: int(exploration_fraction * total_timesteps) for a fraction >= 0. *)
Definition horizon (p : dparams) (total : nat) : nat := Z.to_nat (Qfloor (p_frac p * inject_Z (Z.of_nat total))).

Section Dqn.
  Context {S O A : Type} (enext : S -> A -> S) (rew : S -> A -> Q) (obs_of : S -> O) (done_of : S -> bool) (ereset : S -> S) (vec : bool)
          (act : nat -> Q -> O -> A) (ans : nat -> nat -> answer) (ev : nat -> nat -> Q) (draws : nat -> nat -> nat).

  (** [x and num_timesteps > learning_starts and num_timesteps % freq == 0]; freq = 0 raises if the
      others hold. *)
  Definition due (p : dparams) (b : @buffer O A) (nt freq : nat) : option bool :=
    if can_sample b (p_batch p) && (p_starts p <? nt) then
      if freq =? 0 then None else Some (nt mod freq =? 0)
    else Some false.

  (** dqn.py:253-296: on_rollout_end, sample, train, on_rollout_start. *)
  Definition train_now (p : dparams) (total : nat) (b : @buffer O A) (c : cb) (nt : nat) : option (list (ditem S O A)) :=
    let* d := due p b nt (p_freq p) in
    if d then
      let* beta := (if p_prio p then let* x := linear_value total 1 (4#10) nt in Some (Some x) else Some None) in
      let* data := gather (storage b) (map (fun i => draws nt i mod length (storage b)) (seq 0 (p_batch p))) in
      Some (map DEv (notify RolloutEnd c) ++ DTrain nt data beta :: map DEv (notify RolloutStart c))
    else Some [].
  (** dqn.py:298-301 *)
  Definition target_now (p : dparams) (b : @buffer O A) (nt : nat) : option (list (ditem S O A)) :=
    let* d := due p b nt (p_target p) in Some (if d then [DTarget nt] else []).

  (** dqn.py:194-301: [k] passes of the loop.  [q]: policy queries so far. *)
  Fixpoint dqn_steps (p : dparams) (total k : nat) (s : S) (obs : O) (q : nat) (c : cb) (nt : nat) (b : @buffer O A)
    : option (S * nat * cb * nat * list (ditem S O A)) :=
    match k with
    | 0 => Some (s, q, c, nt, [])
    | Datatypes.S k' =>
        let* eps := linear_value (horizon p total) (p_final p) (p_init p) nt in
        let a := act q eps obs in
        let s' := enext s a in
        let nt' := nt + 1 in
        let* r := on_step ans ev None nt' c in let '(c', evs, an) := r in
        let its := DEnv s a eps :: map DEv evs in
        match an with
        | Stop => Some (s', 1 + q, c', nt', its)
        | _ =>
            let* b' := add b obs a (rew s a) (obs_of s') (done_of s') in
            let s'' := if done_of s' && negb vec then ereset s' else s' in
            let rs := if done_of s' && negb vec then [DReset s'] else [] in
            let* tr := train_now p total b' c' nt' in
            let* tg := target_now p b' nt' in
            let* z := dqn_steps p total k' s'' (obs_of s'') (1 + q) c' nt' b' in let '(sf, qf, cf, ntf, its') := z in
            Some (sf, qf, cf, ntf, its ++ rs ++ tr ++ tg ++ its')
        end
    end.

  (** dqn.py:149-325 [learn]: a new memory, on_training_start, on_rollout_start, a reset, the loop,
      on_training_end. *)
  Definition dqn_learn (p : dparams) (total : nat) (reset : bool) (s : S) (q : nat) (c : cb) (nt : nat)
    : option (S * nat * cb * nat * list (ditem S O A)) :=
    let nt0 := if reset then 0 else nt in
    let s0 := ereset s in
    let* z := dqn_steps p total total s0 (obs_of s0) q c nt0 (new_buffer (p_size p)) in let '(sf, qf, cf, ntf, its) := z in
    Some (sf, qf, cf, ntf, map DEv (notify TrainingStart c) ++ map DEv (notify RolloutStart c) ++ DReset s :: its ++ map DEv (notify TrainingEnd cf)).
End Dqn.
