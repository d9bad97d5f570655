(** What a user of the segment tree expects: a plain array. *)
From Coq Require Import List Arith ZArith QArith Bool.
From Verif Require Import Base SegTree_Model.
Import ListNotations.
Open Scope nat_scope.

Section Spec.
  Context {V : Type}.
  (** The plain array obtained by performing single writes in order. *)
  Definition array_after (init : nat -> V) (ws : list (nat * V)) : nat -> V :=
    fold_left (fun a w j => if Nat.eqb j (fst w) then snd w else a j) ws init.

  (** [op a[i] (op a[i+1] (... a[i+n]))], i.e. n+1 items from [i] on. *)
  Fixpoint right_reduce (op : V -> V -> V) (a : nat -> V) (i n : nat) : V :=
    match n with
    | O => a i
    | S n' => op (a i) (right_reduce op a (S i) n')
    end.

  (** A history of [__setitem__] calls applied to the model tree. *)
  Fixpoint run_writes (op : V -> V -> V) (fuel : nat) (t : tree V)
           (h : list (list (nat * V))) : outcome (tree V) :=
    match h with
    | [] => Done t
    | w :: r => obind (setitems op fuel t w) (fun t' => run_writes op fuel t' r)
    end.
End Spec.

(** Sum of the first [n] items. *)
Fixpoint prefix_sum (a : nat -> Q) (n : nat) : Q :=
  match n with O => 0%Q | S n' => (prefix_sum a n' + a n')%Q end.

(** A history of writes is well formed for capacity [c]: no empty index array,
    every index inside the array. *)
Definition valid_history {V} (c : nat) (h : list (list (nat * V))) : Prop :=
  forall w, In w h -> w <> [] /\ forall iv, In iv w -> fst iv < c.

(** How Python slices read an end argument on an array of [c] items: absent
    means [c], negative counts from the end. *)
Definition range_end (c : nat) (stop : option Z) : Z :=
  match stop with
  | None => Z.of_nat c
  | Some e => if (e <? 0)%Z then (Z.of_nat c + e)%Z else e
  end.
