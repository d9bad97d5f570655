(** Common vocabulary of all model files.  Nothing here models a particular
    piece of neorl; these are the data types the models are written with. *)
From Coq Require Import List Arith ZArith QArith Bool.
Import ListNotations.
Open Scope nat_scope.

(** Result of a Python call: a value, an exception, or "still running when the
    recursion/loop budget given as fuel was used up". *)
Inductive outcome (A : Type) : Type :=
| Done (a : A)
| Raise
| Fuel.
Arguments Done {A} _.
Arguments Raise {A}.
Arguments Fuel {A}.

Definition obind {A B} (x : outcome A) (f : A -> outcome B) : outcome B :=
  match x with Done a => f a | Raise => Raise | Fuel => Fuel end.

(** Strict comparison of rationals as a boolean ([<] on Python numbers). *)
Definition Qltb (a b : Q) : bool := negb (Qle_bool b a).

(** Array update: cell [i] becomes [v]. *)
Definition upd {V} (a : nat -> V) (i : nat) (v : V) : nat -> V :=
  fun j => if Nat.eqb j i then v else a j.

(** [l[i] = x] on a Python list, [i < len(l)] (no effect otherwise; every model
    using it checks the index first). *)
Fixpoint set_nth {A} (l : list A) (i : nat) (x : A) : list A :=
  match l, i with
  | [], _ => []
  | _ :: r, O => x :: r
  | y :: r, S i' => y :: set_nth r i' x
  end.

(** A float that may be [float('inf')]. *)
Inductive ext : Type := Fin (q : Q) | PInf.

Definition ext_leb (a b : ext) : bool :=
  match a, b with
  | _, PInf => true
  | PInf, Fin _ => false
  | Fin x, Fin y => Qle_bool x y
  end.
Definition ext_ltb (a b : ext) : bool := negb (ext_leb b a).
Definition ext_le (a b : ext) : Prop := ext_leb a b = true.
Definition ext_min (a b : ext) : ext := if ext_leb a b then a else b.

(** Monadic iteration over a list (a Python [for] whose body may raise). *)
Fixpoint ofold {A B} (f : A -> B -> option A) (a : A) (l : list B) : option A :=
  match l with
  | [] => Some a
  | b :: r => match f a b with Some a' => ofold f a' r | None => None end
  end.
