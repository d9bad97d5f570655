(** Vocabulary for the theorems about the training loops (C76, C77). *)
From Coq Require Import List Arith ZArith QArith Bool Permutation.
From Verif Require Import Base CB_Model CB_Spec LN_Model.
Import ListNotations.
Open Scope nat_scope.

(** Part number [j] of [l], cut into parts of length [n]. *)
Definition part {X} (n j : nat) (l : list X) : list X := firstn n (skipn (j * n) l).

(** num_timesteps at the [m] callback calls after it was [nt]. *)
Definition counts (nt e m : nat) : list nat := map (fun i => nt + e * S i) (seq 0 m).

Section Spec.
  Context {S O A : Type} (enext : S -> A -> S) (rew : S -> A -> list Q) (obs_of : S -> O) (dones_of : S -> list bool)
          (act : nat -> O -> list bool -> A) (clip : A -> A).

  (** The observation and flags the runner holds are those the environment returned last. *)
  Definition synced (rs : runner S O) : Prop := r_obs rs = obs_of (r_env rs) /\ r_dones rs = dones_of (r_env rs).

  (** The rows are consecutive steps of the environment from state [s]: the action of each is what
      the policy answers to the current observation and flags (query number [q] and following), and
      the reward is that of this step. *)
  Fixpoint path (q : nat) (s : S) (rows : list (row O A)) : Prop :=
    match rows with
    | [] => True
    | w :: r =>
        w_obs w = obs_of s /\ w_dones w = dones_of s /\ w_act w = act q (obs_of s) (dones_of s) /\
        w_rew w = rew s (clip (w_act w)) /\ path (1 + q) (enext s (clip (w_act w))) r
    end.
  (** The state of the environment after these steps. *)
  Definition after (s : S) (rows : list (row O A)) : S := fold_left (fun s w => enext s (clip (w_act w))) rows s.

  (** The log of these steps with the callback events [outs] after each. *)
  Fixpoint played (s : S) (rows : list (row O A)) (outs : list (list event * answer)) : list (item S O A) :=
    match rows, outs with
    | w :: r, o :: os => IEnv s (clip (w_act w)) :: map IEv (fst o) ++ played (enext s (clip (w_act w))) r os
    | _, _ => []
    end.

  (** Rollout number [j], between on_rollout_start and on_rollout_end. *)
  Definition rollout_log (n : nat) (s : S) (c : cb) (rows : list (row O A)) (outs : list (list event * answer)) (j : nat) : list (item S O A) :=
    map IEv (notify RolloutStart c) ++ played (after s (firstn (j * n) rows)) (part n j rows) (part n j outs) ++ map IEv (notify RolloutEnd c).

  (** What learn does: on_training_start, [u] rollouts each followed by what [upd] says, a last
      unfinished rollout if the callback stopped the training, on_training_end. *)
  Definition transcript (n u : nat) (stopped : bool) (s : S) (c : cb) (rows : list (row O A)) (outs : list (list event * answer))
             (upd : nat -> list (item S O A)) : list (item S O A) :=
    map IEv (notify TrainingStart c) ++
    flat_map (fun j => rollout_log n s c rows outs j ++ upd j) (seq 0 u) ++
    (if stopped then rollout_log n s c rows outs u else []) ++
    map IEv (notify TrainingEnd c).

  (** Of [k] planned updates [u] were made: all of them and the callback never answered False, or
      it did so for the first time at the last call, in rollout number [u]. *)
  Definition ends (n k u : nat) (stopped : bool) (outs : list (list event * answer)) : Prop :=
    if stopped then u < k /\ u * n < length outs /\ length outs <= (1 + u) * n /\ stopped_at outs (length outs - 1)
    else u = k /\ length outs = k * n /\ Forall (fun o => snd o <> Stop) outs.

  (** The observation and flags after the first [m] steps. *)
  Definition seen (s : S) (rows : list (row O A)) (m : nat) : O * list bool :=
    (obs_of (after s (firstn m rows)), dones_of (after s (firstn m rows))).
End Spec.

(** One epoch of PPO2 over [N] samples: [mb] minibatches of equal size that contain each sample
    exactly once. *)
Definition epoch (N mb : nat) (batches : list (list nat)) : Prop :=
  Permutation (concat batches) (seq 0 N) /\ length batches = mb /\ Forall (fun b => length b = N / mb) batches.
(** ... with the samples of each environment (of [n] steps) together and in order. *)
Definition env_epoch (e n mb : nat) (batches : list (list nat)) : Prop :=
  exists groups, epoch e mb groups /\ batches = map (flat_map (fun i => seq (i * n) n)) groups.

(** The updates in a log. *)
Definition trainings {S O A} (its : list (item S O A)) : list (training O A) :=
  flat_map (fun i => match i with ITrain t => [t] | _ => [] end) its.
Definition replays {S O A} (its : list (item S O A)) : list (item S O A) :=
  filter (fun i => match i with IReplay _ _ _ => true | _ => false end) its.

(** The rollout that is in cell [i] of a ring of [size] cells after rollout number [j]: the latest
    one whose number is [i] modulo [size]. *)
Definition in_cell (size j i : nat) : nat := j - (j - i) mod size.

(** The updates from the replay memory after update number [j] (memory of [sz] rollouts, [stored]
    the rollouts of this learn): none before start // n_steps rollouts are stored, then
    [pois j] of them, each taking the data of environment [v] from a drawn cell. *)
Definition replayed {S O A} (pois : nat -> nat) (draws : nat -> nat -> nat -> nat) (start e n sz : nat)
    (stored : nat -> list (row O A) * (O * list bool)) (ratio : bool) (nt : nat) (lr : Q) (j : nat) : list (item S O A) :=
  if ratio && (start / n <=? min (1 + j) sz)
  then map (fun i => IReplay nt lr (map (fun v => stored (in_cell sz j (draws j i v mod min (1 + j) sz))) (seq 0 e))) (seq 0 (pois j))
  else [].
