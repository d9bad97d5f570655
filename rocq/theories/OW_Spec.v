(** What is claimed of the initial weights. *)
From mathcomp Require Import all_ssreflect all_algebra.
From Verif Require Import OW_Model.
Set Implicit Arguments. Unset Strict Implicit. Unset Printing Implicit Defensive.
Import GRing.Theory Num.Theory.
Local Open Scope ring_scope.

Section Spec.
Variable R : rcfType.
(** What numpy promises of a thin singular value decomposition: the columns of u and the rows of v are orthonormal. *)
Definition is_svd (svd : svd_t R) : Prop := forall m n (A : 'M[R]_(m, n)), (svd m n A).1^T *m (svd m n A).1 = 1%:M /\ (svd m n A).2 *m (svd m n A).2^T = 1%:M.
(** The square of the length of a row. *)
Definition len2 n (x : 'rV[R]_n) : R := \sum_j x 0 j ^+ 2.
End Spec.
