(** Vocabulary for the schedule properties. *)
From Coq Require Import List Arith ZArith QArith Bool.
From Verif Require Import Base Sched_Model.
Import ListNotations.
Open Scope Q_scope.

(** [v] lies between [a] and [b], in whatever order they are. *)
Definition between (a b v : Q) : Prop := (a <= v <= b) \/ (b <= v <= a).

(** The values returned by [n] successive calls of [Scheduler.value]. *)
Fixpoint sched_run (s : scheduler) (n : nat) : option (list Q) :=
  match n with
  | O => Some []
  | S n' => match sched_value s with
            | None => None
            | Some (s', v) => match sched_run s' n' with
                              | None => None
                              | Some vs => Some (v :: vs)
                              end
            end
  end.

Definition nonincreasing_on_unit (c : Q -> Q) : Prop :=
  forall p q, 0 <= p -> p <= q -> q <= 1 -> c q <= c p.
