(** Histories of calls on an ExperienceReplay memory and what they mean. *)
From Coq Require Import List Arith ZArith QArith Bool.
From Verif Require Import Base ER_Model.
Import ListNotations.
Open Scope nat_scope.

Section Spec.
  Context {X M : Type}.
  Variable eqX : X -> X -> bool.
  Variable eqM : M -> M -> bool.
  Variable pw : Q -> Q.
  Notation S := (sample X M).

  Inductive op : Type :=
  | OAdd (x : X) (o : Q) (m : option M)
  | OAddBatch (xs : list X) (os : list Q) (ms : option (list M))
  | OUniform (draws : list nat)
  | OGreedy (k : nat)
  | OPrior (draws : list nat)
  | ORemoveDup.

  Definition exec_op (m : memory X M) (c : op) : option (memory X M) :=
    match c with
    | OAdd x o me => add_single eqX eqM m x o me
    | OAddBatch xs os ms => add_batch eqX eqM m xs os ms
    | OUniform d => match sample_uniform m d with Some _ => Some m | None => None end
    | OGreedy k => Some (fst (sample_greedy m k))
    | OPrior d => match sample_prior pw m d with Some (m', _) => Some m' | None => None end
    | ORemoveDup => remove_duplicates eqX m
    end.

  (** The samples handed to the memory by a call, in order. *)
  Definition added (c : op) : list S :=
    match c with
    | OAdd x o me => [(x, o, me)]
    | OAddBatch xs os ms => zip_batch xs os ms
    | _ => []
    end.

  (** [b] equals (Python ==) some element of [l]. *)
  Definition occurs (b : S) (l : list S) : Prop := exists a, In a l /\ sample_eqb eqX eqM b a = true.

  (** No two entries (at different positions) are equal. *)
  Definition no_equal_pair (l : list S) : Prop :=
    forall i j a b, i < j -> nth_error l i = Some a -> nth_error l j = Some b ->
      sample_eqb eqX eqM a b = false.

  Definition is_remove (c : op) : bool := match c with ORemoveDup => true | _ => false end.
  Definition reorders (c : op) : bool :=
    match c with ORemoveDup | OGreedy _ | OPrior _ => true | _ => false end.

  (** First in, first out with size [s]: what the window of accepted samples
      should be.  A sample equal to one still in the window is ignored. *)
  Definition window (s : nat) (acc : list S) : list S := skipn (length acc - s) acc.
  Definition accept (s : nat) (acc : list S) (a : S) : list S :=
    if existsb (sample_eqb eqX eqM a) (window s acc) then acc else acc ++ [a].

  (** [==] behaves like an equality. *)
  Definition equivalence {T} (e : T -> T -> bool) : Prop :=
    (forall a, e a a = true) /\ (forall a b, e a b = true -> e b a = true) /\
    (forall a b c, e a b = true -> e b c = true -> e a c = true).
End Spec.
