(** Model of the training callbacks of neorl/rl/baselines/shared/callbacks.py: callbacks of the
    user, CallbackList, CheckpointCallback, EveryNTimesteps, EvalCallback and
    StopTrainingOnRewardThreshold, in any nesting.

    A callback of the user (a subclass of BaseCallback, or a function wrapped by ConvertCallback) is
    known only by its identity; [ans id n] is what its n-th call returns, an arbitrary function.
    [ev id n] is the mean reward the EvalCallback [id] measures at its n-th call (evaluation.py runs
    the policy; arbitrary).  Saving a model is an event that carries the number in the file name.
    log_path, verbosity and [sync_envs_normalization] are not modelled; an exception is [None]. *)
From Coq Require Import List Arith ZArith QArith Bool.
From Verif Require Import Base Opt_Model.
Import ListNotations.
Open Scope nat_scope.

(** What a callback returns: True, False, or None (a function without a return statement). *)
Inductive answer : Type := Go | Stop | Nothing.
(** Python's [x and y]. *)
Definition py_and (x y : answer) : answer := match x with Go => y | _ => x end.

(** The four notifications besides on_step. *)
Inductive signal : Type := TrainingStart | RolloutStart | RolloutEnd | TrainingEnd.

(** What a user can observe. *)
Inductive event : Type :=
| ECall (id n ts : nat)        (** n-th call of the user's callback [id], num_timesteps = ts *)
| ESignal (id : nat) (s : signal)
| ESave (id ts : nat)          (** CheckpointCallback [id] saves <prefix>_<ts>_steps *)
| EEval (id ts : nat) (mean : Q)
| EBest (id ts : nat).         (** EvalCallback [id] saves best_model *)

(** callbacks.py:24-40, 121-127, 158-161, 196-200, 252-286, 348-350, 370-373: the objects with their
    attributes n_calls ([n]), last_time_trigger ([last]), best_mean_reward ([best], [None]: -inf). *)
Inductive cb : Type :=
| User (id n : nat)
| Checkpoint (id freq n : nat)
| Every (k last n : nat) (child : cb)
| Eval (id freq n : nat) (best : option Q) (child : option cb)
| StopAbove (thr : Q) (n : nat)
| Chain (n : nat) (l : list cb).

Section Loop.
  Context {A : Type} (f : A -> option (A * list event * answer)).
  (** callbacks.py:171-176 the loop of CallbackList._on_step. *)
  Fixpoint chain (l : list A) (acc : answer) : option (list A * list event * answer) :=
    match l with
    | [] => Some ([], [], acc)
    | c :: r =>
        let* p := f c in let '(c', e, a) := p in
        let* q := chain r (py_and a acc) in let '(r', e', a') := q in
        Some (c' :: r', e ++ e', a')
    end.
End Loop.

Section Callbacks.
  Context (ans : nat -> nat -> answer) (ev : nat -> nat -> Q).

  (** callbacks.py:86-99 on_step (n_calls += 1, then _on_step: 171-176, 206-212, 226-229, 295-334,
      352-360, 376-380).  [par]: best_mean_reward of the parent if it is an EvalCallback; without
      it StopTrainingOnRewardThreshold raises (AssertionError or AttributeError).  save_freq = 0:
      ZeroDivisionError.  num_timesteps - last_time_trigger >= n_steps is written with +. *)
  Fixpoint on_step (par : option (option Q)) (ts : nat) (c : cb) {struct c} : option (cb * list event * answer) :=
    match c with
    | User id n => Some (User id (S n), [ECall id (S n) ts], ans id (S n))
    | Checkpoint id freq n =>
        if freq =? 0 then None
        else Some (Checkpoint id freq (S n), if S n mod freq =? 0 then [ESave id ts] else [], Go)
    | Every k last n child =>
        if last + k <=? ts then
          let* p := on_step None ts child in let '(child', e, a) := p in
          Some (Every k ts (S n) child', e, a)
        else Some (Every k last (S n) child, [], Go)
    | Eval id freq n best child =>
        if (0 <? freq) && (S n mod freq =? 0) then
          let m := ev id (S n) in
          let better := match best with None => true | Some b => Qltb b m end in
          if better then
            match child with
            | None => Some (Eval id freq (S n) (Some m) None, [EEval id ts m; EBest id ts], Go)
            | Some ch =>
                let* p := on_step (Some (Some m)) ts ch in let '(ch', e, a) := p in
                Some (Eval id freq (S n) (Some m) (Some ch'), EEval id ts m :: EBest id ts :: e, a)
            end
          else Some (Eval id freq (S n) best child, [EEval id ts m], Go)
        else Some (Eval id freq (S n) best child, [], Go)
    | StopAbove thr n =>
        match par with
        | None => None
        | Some best =>
            let below := match best with None => true | Some b => Qltb b thr end in
            Some (StopAbove thr (S n), [], if below then Go else Stop)
        end
    | Chain n l =>
        let* p := chain (on_step None ts) l Go in let '(l', e, a) := p in
        Some (Chain (S n) l', e, a)
    end.

  (** Successive calls of the callback handed to learn (it has no parent), at these values of
      num_timesteps. *)
  Fixpoint calls (c : cb) (tss : list nat) : option (cb * list (list event * answer)) :=
    match tss with
    | [] => Some (c, [])
    | ts :: r =>
        let* p := on_step None ts c in let '(c', e, a) := p in
        let* q := calls c' r in let '(c'', out) := q in
        Some (c'', (e, a) :: out)
    end.
End Callbacks.

(** callbacks.py:68-83, 101-111 (users: each signal is seen), 134-136 (EventCallback forwards only
    on_training_start to its child), 167-184 (CallbackList forwards all of them). *)
Fixpoint notify (s : signal) (c : cb) : list event :=
  match c with
  | User id _ => [ESignal id s]
  | Checkpoint _ _ _ => []
  | Every _ _ _ child => match s with TrainingStart => notify s child | _ => [] end
  | Eval _ _ _ _ child =>
      match s, child with TrainingStart, Some ch => notify s ch | _, _ => [] end
  | StopAbove _ _ => []
  | Chain _ l => flat_map (notify s) l
  end.
