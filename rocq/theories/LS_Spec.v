(** What acting and the losses should compute, without reference to the model. *)
From Coq Require Import String List Arith ZArith Reals Lra Permutation.
Import ListNotations.
Open Scope R_scope.

(** i is the first position of a largest element of l. *)
Definition first_best (l : list R) (i : nat) : Prop :=
  (i < List.length l)%nat /\ (forall j, (j < List.length l)%nat -> nth j l 0 <= nth i l 0) /\ forall j, (j < i)%nat -> nth j l 0 < nth i l 0.
(** v is the largest element of l. *)
Definition largest (l : list R) (v : R) : Prop := In v l /\ forall x, In x l -> x <= v.
(** e is the last of the numbers that is not negative, or 0. *)
Definition last_given (l : list R) (e : R) : Prop :=
  (e = 0 /\ Forall (fun x => x < 0) l) \/
  exists before after, l = before ++ e :: after /\ 0 <= e /\ Forall (fun x => x < 0) after.
(** x kept within [lo, hi]. *)
Definition kept_within (x lo hi y : R) : Prop := lo <= y <= hi /\ (lo <= x <= hi -> y = x) /\ (x < lo -> y = lo) /\ (hi < x -> y = hi).
(** The average. *)
Definition avg (l : list R) : R := fold_right Rplus 0 l / INR (List.length l).
(** How many elements satisfy p. *)
Definition share {A} (p : A -> Prop) (dec : forall x, {p x} + {~ p x}) (l : list A) : R :=
  INR (List.length (filter (fun x => if dec x then true else false) l)) / INR (List.length l).
(** Names with a prefix. *)
Definition named (p : string) {V} (l : list (string * V)) : list (string * V) := map (fun x => ((p ++ fst x)%string, snd x)) l.
(** The network puts out a value for each of n actions. *)
Definition sized {Obs} (n : nat) (q : Obs -> list R) : Prop := forall o, List.length (q o) = n.
