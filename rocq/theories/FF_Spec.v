(** What is claimed of F7. *)
From Coq Require Import List Arith Reals.
Import ListNotations.
Open Scope R_scope.

(** Draws of numpy: choice([0, 1, 2]) gives at most 2 and uniform() a number from 0 to 1. *)
Definition numpy_draws {G : Type} (choice : G -> nat * G) (uniform : G -> R * G) : Prop :=
  (forall g, (fst (choice g) <= 2)%nat) /\ forall g, 0 <= fst (uniform g) < 1.
(** Each pair of neighbours. *)
Fixpoint neighbours (P : R -> R -> Prop) (l : list R) : Prop :=
  match l with a :: ((b :: _) as r) => P a b /\ neighbours P r | _ => True end.
(** The sum of dips of given centres and depths at [x], a dip being a polynomial inside (-1/2, 1/2) and nothing outside. *)
Fixpoint sum_dips (x : R) (l : list (R * R)) : R :=
  match l with
  | [] => 0
  | (c, s) :: r => (if Rlt_dec (Rabs x) (1 / 2) then s * (1 - 392 * (x - c) ^ 2 + 3088 * (x - c) ^ 4 - 6144 * (x - c) ^ 6) else 0) + sum_dips x r
  end.
