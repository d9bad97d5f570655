(** Vocabulary for the theorems about DTLZ2 (C83). *)
From Coq Require Import List Arith Reals.
From Verif Require Import BM_Model DT_Model.
Import ListNotations.
Open Scope R_scope.

(** A vector of the search space. *)
Definition in_box (n : nat) (x : list R) : Prop := length x = n /\ Forall (fun a => 0 <= a <= 1) x.
(** u is at least as good in every objective, and not the same. *)
Definition dominates (u v : list R) : Prop := Forall2 Rle u v /\ u <> v.
(** x is a vector of the search space whose objectives no other vector of it dominates. *)
Definition pareto_optimal (n_var n_obj : nat) (x : list R) : Prop :=
  in_box n_var x /\ forall y u v, in_box n_var y -> dtlz2 n_var n_obj y = Some u -> dtlz2 n_var n_obj x = Some v -> ~ dominates u v.
(** The sum of the squares of the entries. *)
Definition square_sum (v : list R) : R := fold_right (fun a s => a * a + s) 0 v.
(** A point of the unit sphere without negative entries. *)
Definition on_front (n_obj : nat) (v : list R) : Prop := length v = n_obj /\ Forall (fun a => 0 <= a) v /\ square_sum v = 1.
