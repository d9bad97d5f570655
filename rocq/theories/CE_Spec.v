(** Vocabulary for the theorems about the CEC'2008 and CEC'2017 functions (C81, C82). *)
From Coq Require Import List Bool Arith Reals.
From Verif Require Import BM_Model CE_Model.
Import ListNotations.
Open Scope R_scope.

(** An n x n matrix. *)
Definition square (n : nat) (m : list (list R)) : Prop := length m = n /\ Forall (fun r => length r = n) m.
(** Enough entries, all of them indices of n coordinates. *)
Definition indices (n : nat) (q : list nat) : Prop := (n <= length q)%nat /\ Forall (fun i => (i < n)%nat) q.
(** The shapes of the official data: the comments of transforms.py:26-80. *)
Definition well_formed (T : tables) : Prop :=
  (forall nx i, In nx rot_dims -> square nx (rot T nx i)) /\
  (forall i, (100 <= length (shift T i))%nat) /\
  (forall nx i, In nx perm_dims -> indices nx (perm T nx i)) /\
  (forall nx i, In nx rot_dims -> (10 <= length (rot_cf T nx i))%nat /\ Forall (square nx) (rot_cf T nx i)) /\
  (forall i, (10 <= length (shift_cf T i))%nat /\ Forall (fun s => (100 <= length s)%nat) (shift_cf T i)) /\
  (forall nx i, In nx perm_dims -> (10 <= length (perm_cf T nx i))%nat /\ Forall (indices nx) (perm_cf T nx i)).
(** The numbers of coordinates function k can be called with. *)
Definition cec17_dims (k : nat) : list nat :=
  if ((10 <? k) && (k <=? 20) || (28 <? k))%nat then perm_dims else rot_dims.
(** The functions with a component of the modified Schwefel function among f1 .. f20. *)
Definition has_schwefel (k : nat) : bool := existsb (Nat.eqb k) [10; 12; 16; 17; 20]%nat.
(** The shift vector of f_k for k <= 20, and the shift vectors of the components of f_k for k > 20. *)
Definition optimum (T : tables) (k nx : nat) : list R := firstn nx (shift T (k - 1)).
Definition comp_count (k : nat) : nat := length (comp_consts k).
Definition comp_shift (T : tables) (k i nx : nat) : list R := firstn nx (nth i (shift_cf T (k - 21)) []).
(** The search space of the CEC'2017 functions. *)
Definition inside (x : list R) : Prop := forall a, In a x -> -100 <= a <= 100.
(** Two vectors of the same length that differ by at most e in every coordinate. *)
Definition within_each (e : R) (x y : list R) : Prop := Forall2 (fun a b => Rabs (a - b) <= e) x y.
