(** What is claimed of alpinen1, alpinen2 and ridge. *)
From Coq Require Import List Reals.
Import ListNotations.
Open Scope R_scope.

(** The product of x -> sqrt(x) sin(x) over the coordinates. *)
Fixpoint alpine_product (l : list R) : R := match l with [] => 1 | x :: r => sqrt x * sin x * alpine_product r end.
(** The product of the coordinates. *)
Fixpoint volume (l : list R) : R := match l with [] => 1 | x :: r => x * volume r end.
(** The euclidean distance from the origin, squared. *)
Fixpoint norm2 (l : list R) : R := match l with [] => 0 | x :: r => x * x + norm2 r end.
