(** The runs of XNES considered. *)
From Coq Require Import List Arith ZArith QArith Bool.
From Verif Require Import Base Space_Model.
Import ListNotations.
Open Scope nat_scope.

(** A series of calls of evolute: each call is a list of generations, each generation a list of
    [n] candidates with one number per variable (before the bound repair). *)
Definition good_calls (ds : list dimn) (n : nat) (calls : list (list (list (list Q)))) : Prop :=
  Forall (fun raws => Forall (fun raw => length raw = n /\ Forall (fun r => length r = length ds) raw) raws) calls.
