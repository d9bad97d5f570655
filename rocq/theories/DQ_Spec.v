(** Vocabulary for the theorems about DQN.learn (C78). *)
From Coq Require Import List Arith ZArith QArith Bool.
From Verif Require Import Base Sched_Model CB_Model CB_Spec Replay_Model DQ_Model LN_Spec.
Import ListNotations.
Open Scope nat_scope.

(** The exploration rate at num_timesteps = [nt]: linear from eps_init to eps_final over the first
    int(exploration_fraction*total) timesteps, then constant. *)
Definition epsilon (p : dparams) (total nt : nat) : Q :=
  (p_init p + qmin (inject_Z (Z.of_nat nt) / inject_Z (Z.of_nat (horizon p total))) 1 * (p_final p - p_init p))%Q.

(** The updates take place after step number [j] (counted from 0): enough transitions stored,
    learning_starts passed, a multiple of the frequency. *)
Definition time_for (p : dparams) (freq nt0 j : nat) : bool :=
  (p_batch p <=? min (1 + j) (p_size p)) && (p_starts p <? nt0 + (1 + j)) && ((nt0 + (1 + j)) mod freq =? 0).

(** The transitions number [ks] of [rows]. *)
Definition fetch {X} (rows : list X) (ks : list nat) : list X := flat_map (fun k => match nth_error rows k with Some r => [r] | None => [] end) ks.

Definition act_of {O A} (r : @transition O A) : A := let '(_, a, _, _, _) := r in a.

Section Spec.
  Context {S O A : Type} (enext : S -> A -> S) (rew : S -> A -> Q) (obs_of : S -> O) (done_of : S -> bool) (ereset : S -> S) (vec : bool)
          (act : nat -> Q -> O -> A).

  (** The state before the next step. *)
  Definition next_state (s : S) (a : A) : S :=
    let s' := enext s a in if done_of s' && negb vec then ereset s' else s'.
  Definition state_after (s : S) (rows : list (@transition O A)) : S := fold_left (fun s r => next_state s (act_of r)) rows s.

  (** The rows are the transitions of consecutive steps from state [s] (query number [q], first at
      num_timesteps = [nt]), each action chosen for the current observation with the epsilon of its
      time. *)
  Fixpoint dpath (eps : nat -> Q) (q nt : nat) (s : S) (rows : list (@transition O A)) : Prop :=
    match rows with
    | [] => True
    | r :: l =>
        (let a := act q (eps nt) (obs_of s) in r = (obs_of s, a, rew s a, obs_of (enext s a), done_of (enext s a))) /\
        dpath eps (1 + q) (1 + nt) (next_state s (act_of r)) l
    end.

  (** What is done after step number [j] of a learn whose steps are [rows]: a reset if the episode is
      over, the update and the update of the target if they are due. *)
  Definition updates (p : dparams) (total : nat) (draws : nat -> nat -> nat) (c : cb) (nt0 : nat) (s0 : S) (rows : list (@transition O A)) (j : nat) (r : @transition O A) : list (ditem S O A) :=
    (let s' := enext (state_after s0 (firstn j rows)) (act_of r) in if done_of s' && negb vec then [DReset s'] else []) ++
    (if time_for p (p_freq p) nt0 j
     then map DEv (notify RolloutEnd c) ++
          DTrain (nt0 + (1 + j)) (fetch rows (map (fun i => in_cell (p_size p) j (draws (nt0 + (1 + j)) i mod min (1 + j) (p_size p))) (seq 0 (p_batch p))))
                 (if p_prio p then linear_value total 1 (4#10) (nt0 + (1 + j)) else None) ::
          map DEv (notify RolloutStart c)
     else []) ++
    (if time_for p (p_target p) nt0 j then [DTarget (nt0 + (1 + j))] else []).

  (** Step number [j]: the step, the callback events and, unless the callback stopped the run, the
      rest. *)
  Definition step_log (p : dparams) (total : nat) (draws : nat -> nat -> nat) (c : cb) (nt0 : nat) (s0 : S) (stopped : bool)
             (rows : list (@transition O A)) (outs : list (list event * answer)) (j : nat) : list (ditem S O A) :=
    match nth_error rows j, nth_error outs j with
    | Some r, Some o =>
        DEnv (state_after s0 (firstn j rows)) (act_of r) (epsilon p total (nt0 + j)) :: map DEv (fst o) ++
        (if stopped && (1 + j =? length rows) then [] else updates p total draws c nt0 s0 rows j r)
    | _, _ => []
    end.
End Spec.

(** The run makes [total] steps and the callback never answers False, or it ends with the first
    False. *)
Definition dends (total : nat) (stopped : bool) (outs : list (list event * answer)) : Prop :=
  if stopped then 1 <= length outs /\ length outs <= total /\ stopped_at outs (length outs - 1)
  else length outs = total /\ Forall (fun o => snd o <> Stop) outs.

(** The times of the updates, of the target updates; the rollout signals seen by user callback
    [id]. *)
Definition train_times {S O A} (its : list (ditem S O A)) : list nat := flat_map (fun i => match i with DTrain t _ _ => [t] | _ => [] end) its.
Definition target_times {S O A} (its : list (ditem S O A)) : list nat := flat_map (fun i => match i with DTarget t => [t] | _ => [] end) its.
Definition is_signal {S O A} (id : nat) (s : signal) (i : ditem S O A) : bool :=
  match i with DEv (ESignal id' s') => (id =? id') && match s, s' with
     | TrainingStart, TrainingStart | RolloutStart, RolloutStart | RolloutEnd, RolloutEnd | TrainingEnd, TrainingEnd => true | _, _ => false end | _ => false end.
