(** Model of neorl/rl/baselines/shared/schedules.py. *)
From Coq Require Import List Arith ZArith QArith Bool.
From Verif Require Import Base.
Import ListNotations.
Open Scope Q_scope.

Definition qmin (a b : Q) : Q := if Qle_bool a b then a else b.

(** schedules.py 38-48 *)
Definition linear_interpolation (left right alpha : Q) : Q := left + alpha * (right - left).

(** schedules.py 73-78, the constructor's assertion: times sorted. *)
Fixpoint sorted_times (eps : list (Q * Q)) : bool :=
  match eps with
  | (a, _) :: (((b, _) :: _) as r) => Qle_bool a b && sorted_times r
  | _ => true
  end.
Definition new_piecewise (eps : list (Q * Q)) (out : option Q) : option (list (Q * Q) * option Q) :=
  if sorted_times eps then Some (eps, out) else None.

(** schedules.py 81-84, the loop over consecutive pairs of end points. *)
Fixpoint piece (eps : list (Q * Q)) (step : Q) : option Q :=
  match eps with
  | (lt, l) :: (((rt, r) :: _) as rest) =>
      if Qle_bool lt step && Qltb step rt
      then Some (linear_interpolation l r ((step - lt) / (rt - lt)))
      else piece rest step
  | _ => None
  end.

(** schedules.py 80-88 [PiecewiseSchedule.value]; [None]: AssertionError. *)
Definition piecewise_value (p : list (Q * Q) * option Q) (step : Q) : option Q :=
  match piece (fst p) step with
  | Some v => Some v
  | None => snd p
  end.

(** schedules.py 106-108 [LinearSchedule.value]; [None]: ZeroDivisionError. *)
Definition linear_value (timesteps : nat) (final_p initial_p : Q) (step : nat) : option Q :=
  if Nat.eqb timesteps 0 then None
  else
    let fraction := qmin (inject_Z (Z.of_nat step) / inject_Z (Z.of_nat timesteps)) 1 in
    Some (initial_p + fraction * (final_p - initial_p)).

(** schedules.py 148-208, the legacy curves. *)
Definition constant (_ : Q) : Q := 1.
Definition linear_schedule (p : Q) : Q := 1 - p.
Definition middle_drop (p : Q) : Q := if Qltb (1 - p) (3#4) then (3#4) * (1#10) else 1 - p.
Definition double_linear_con (p : Q) : Q :=
  let p := p * 2 in if Qltb (1 - p) (1#8) then 1#8 else 1 - p.
Definition double_middle_drop (p : Q) : Q :=
  if Qltb (1 - p) (3#4) then
    if Qltb (1 - p) (1#4) then (1#4) * (1#2) else (3#4) * (1#10)
  else 1 - p.

(** schedules.py 220-254 [Scheduler] *)
Record scheduler : Type := mkSched { sstep : nat; sinit : Q; svals : nat; curve : Q -> Q }.
Definition new_scheduler (init : Q) (n : nat) (c : Q -> Q) : scheduler := mkSched 0 init n c.
Definition value_steps (s : scheduler) (steps : nat) : option Q :=
  if Nat.eqb (svals s) 0 then None
  else Some (sinit s * curve s (inject_Z (Z.of_nat steps) / inject_Z (Z.of_nat (svals s)))).
Definition sched_value (s : scheduler) : option (scheduler * Q) :=
  match value_steps s (sstep s) with
  | None => None
  | Some v => Some (mkSched (S (sstep s)) (sinit s) (svals s) (curve s), v)
  end.
