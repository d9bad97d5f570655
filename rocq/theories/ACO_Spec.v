(** The archive of the ant colony. *)
From Coq Require Import List Arith ZArith QArith Bool Permutation.
From Verif Require Import Base Space_Model Opt_Model Opt_Spec.
Import ListNotations.
Open Scope nat_scope.

(** [best] are [k] best entries of [all] (as multisets): what is left out is no better than
    anything kept.  Costs are minimised. *)
Definition k_best {X} (cost : X -> Q) (k : nat) (all best : list X) : Prop :=
  length best = k /\ exists rest, Permutation all (best ++ rest) /\
  forall a r, In a best -> In r rest -> (cost a <= cost r)%Q.
