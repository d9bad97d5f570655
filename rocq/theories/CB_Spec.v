(** Vocabulary for the theorems about callbacks (C75). *)
From Coq Require Import List Arith ZArith QArith Bool.
From Verif Require Import Base CB_Model.
Import ListNotations.
Open Scope nat_scope.

(** The elements of [l] at the positions marked true. *)
Fixpoint select {A} (sel : list bool) (l : list A) : list A :=
  match sel, l with
  | true :: s, x :: r => x :: select s r
  | false :: s, _ :: r => select s r
  | _, _ => []
  end.

(** A call that does nothing and lets the training go on. *)
Definition idle : list event * answer := ([], Go).

(** The results [out], one at each marked position, and nothing in between. *)
Fixpoint spread (sel : list bool) (out : list (list event * answer)) : list (list event * answer) :=
  match sel with
  | [] => []
  | true :: s => match out with o :: r => o :: spread s r | [] => [] end
  | false :: s => idle :: spread s out
  end.

(** num_timesteps at the successive callback calls of a learn with [e] environments that starts at
    zero and makes [n] steps. *)
Definition steps_of (e n : nat) : list nat := map (fun j => e * S j) (seq 0 n).

(** Call number [j] (counted from 0) is an evaluation of an EvalCallback with eval_freq = [f]. *)
Definition evaluates (f j : nat) : Prop := S j mod f = 0.
(** ... and a new best one: better than all earlier evaluations. *)
Definition record (mean : nat -> Q) (f j : nat) : Prop :=
  evaluates f j /\ forall i, i < j -> evaluates f i -> (mean i < mean j)%Q.

(** The training of a learn that starts with the first of these calls is stopped at call [j]. *)
Definition stopped_at (out : list (list event * answer)) (j : nat) : Prop :=
  (exists e, nth_error out j = Some (e, Stop)) /\ forall i o, i < j -> nth_error out i = Some o -> snd o <> Stop.

(** Callbacks that cannot raise: checkpoints have a positive save_freq, and
    StopTrainingOnRewardThreshold is used directly as the callback_on_new_best of an EvalCallback. *)
Fixpoint sound (c : cb) : Prop :=
  match c with
  | User _ _ => True
  | Checkpoint _ freq _ => 1 <= freq
  | Every _ _ _ child => sound child
  | Eval _ _ _ _ None => True
  | Eval _ _ _ _ (Some (StopAbove _ _)) => True
  | Eval _ _ _ _ (Some child) => sound child
  | StopAbove _ _ => False
  | Chain _ l => (fix all (l : list cb) : Prop := match l with [] => True | c :: r => sound c /\ all r end) l
  end.

(** The callback_on_new_best of an EvalCallback, called at these times, gave these results. *)
Definition child_calls (ans : nat -> nat -> answer) (ev : nat -> nat -> Q) (child : option cb) (tss : list nat) (out : list (list event * answer)) : Prop :=
  match child with
  | None => out = map (fun _ => idle) tss
  | Some c => exists c', calls ans ev c tss = Some (c', out)
  end.

(** The callbacks of the user that hear of the start of the training: all of them, in the order of the tree ... *)
Fixpoint users (c : cb) : list nat :=
  match c with
  | User id _ => [id]
  | Every _ _ _ child => users child
  | Eval _ _ _ _ (Some child) => users child
  | Chain _ l => flat_map users l
  | _ => []
  end.
(** ... and those that hear of the other events: the ones not inside an EveryNTimesteps or EvalCallback. *)
Fixpoint outer (c : cb) : list nat :=
  match c with
  | User id _ => [id]
  | Chain _ l => flat_map outer l
  | _ => []
  end.
