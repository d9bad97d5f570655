(** What C123 is stated with. *)
From mathcomp Require Import all_ssreflect all_algebra.
From Verif Require Import KF_Model.
Set Implicit Arguments. Unset Strict Implicit. Unset Printing Implicit Defensive.
Import GRing.Theory Num.Theory.
Local Open Scope ring_scope.

Section Spec.
Variable R : rcfType.
Definition orthogonal d (Q : 'M[R]_d) : Prop := Q^T *m Q = 1%:M.
(** The matrix with eigenvectors Q and eigenvalues e. *)
Definition matrix_of d (Q : 'M[R]_d) (e : 'rV[R]_d) : 'M[R]_d := Q *m diag_mx e *m Q^T.
(** The eigenvalues above the threshold, zero for the others. *)
Definition kept d (e : 'rV[R]_d) : 'rV[R]_d := map_mx (@clipout R) e.
Definition symmetric d (S : 'M[R]_d) : Prop := S^T = S.
Definition nonnegative d (S : 'M[R]_d) : Prop := forall v : 'rV[R]_d, 0 <= (v *m S *m v^T) 0 0.
(** The layers have eigenvectors that are orthogonal. *)
Definition sound (l : layer R) : Prop := orthogonal (act_Q l) /\ orthogonal (grad_Q l).
End Spec.
(** The updates of run number i + 1, counted from the first. *)
Definition made (cold_iter : nat) (rs : seq reads) (i : nat) : updates := nth (Updates false None) (trainings cold_iter rs start) i.
