(** The three functions of benchmarks/classic.py that no table lists: alpinen1, alpinen2 and ridge.  Floats are exact real numbers; an
    exception is [None]. *)
From Coq Require Import List Reals.
From Verif Require Import BM_Model.
Import ListNotations.
Open Scope R_scope.

(** classic.py:95-96: abs(x * sin(x) + 0.1 * x). *)
Definition alpinen1 (l : list R) : R := rsum (map (fun x => Rabs (x * sin x + 1 / 10 * x)) l).
(** math.sqrt raises ValueError for negative numbers. *)
Definition msqrt (x : R) : option R := if Rle_dec 0 x then Some (sqrt x) else None.
(** classic.py:98-99: reduce(mul, (sqrt(x)*sin(x) ...), 1). *)
Fixpoint alpinen2_from (acc : R) (l : list R) : option R :=
  match l with [] => Some acc | x :: r => match msqrt x with None => None | Some s => alpinen2_from (acc * (s * sin x)) r end end.
Definition alpinen2 (l : list R) : option R := alpinen2_from 1 l.
(** classic.py:143-146: individual[0] + d * sum(...)**alpha with d = 1 and alpha = 0.5; individual[0] raises for an empty list. *)
Definition ridge (l : list R) : option R :=
  match l with [] => None | x :: r => Some (x + 1 * sqrt (rsum (map sq r))) end.
