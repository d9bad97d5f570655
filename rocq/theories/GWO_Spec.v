(** The three best distinct values. *)
From Coq Require Import List Arith ZArith QArith Bool.
From Verif Require Import Base Opt_Model Opt_Spec.
Import ListNotations.
Open Scope nat_scope.

Definition strictly_worse (m : mode) (w v : Q) : Prop := match m with Mmin => (v < w)%Q | Mmax => (w < v)%Q end.

(** [e] is the best of the values satisfying [P], or infinite when there is none. *)
Definition best_among (m : mode) (vals : list Q) (P : Q -> Prop) (e : ext) : Prop :=
  match e with
  | Fin q => (exists w, In w vals /\ P w /\ (q == w)%Q) /\ forall w, In w vals -> P w -> as_good m q w
  | PInf => forall w, In w vals -> ~ P w
  end.

(** Strictly worse than the (finite) score [e]. *)
Definition after (m : mode) (e : ext) (w : Q) : Prop := match e with Fin q => strictly_worse m w q | PInf => False end.

(** [a], [b], [d] are the best, second best and third best distinct values of [vals]. *)
Definition podium (m : mode) (vals : list Q) (a b d : ext) : Prop :=
  best_among m vals (fun _ => True) a /\ best_among m vals (after m a) b /\ best_among m vals (after m b) d.
