(** What the toy environments should do, without reference to the model's own computations. *)
From Coq Require Import List Arith ZArith QArith Bool.
Import ListNotations.
Open Scope nat_scope.

Definition solved (l : list bool) : Prop := forall b, In b l -> b = true.
(** The number of zeros. *)
Definition zeros (l : list bool) : nat := length (filter negb l).
(** m is l with exactly the i-th bit flipped. *)
Definition flipped_at (i : nat) (l m : list bool) : Prop :=
  length m = length l /\ (i < length l -> nth i m false = negb (nth i l false)) /\ forall j, j <> i -> nth j m false = nth j l false.
Definition total (l : list Z) : Z := fold_right Z.add 0%Z l.
