(** Property theorems about conjugate_gradient (C105). *)
From Coq Require Import List Arith Reals.
From Verif Require Import CG_Model CG_Spec CG_Proofs.
Open Scope R_scope.

(** C105: for a symmetric positive definite operator on vectors of n numbers and b other than 0, at least n allowed
    iterations and a positive tolerance are always enough: after at most n iterations the answer x has |b - A x|^2 < residual_tol. *)
Theorem C105_solves : forall n A b iters tol verbose, spd n A -> length b = n -> b <> zeros n -> 0 < tol -> (n <= iters)%nat ->
  exists x k, conjugate_gradient A b iters verbose tol = (Vec x, k) /\ length x = n /\ (1 <= k <= n)%nat /\ gap2 A b x < tol.
Proof. exact cg_solves. Qed.
Print Assumptions C105_solves.

(** C105: with fewer iterations the answer is still the best one that this number k of products with A can reach; and
    unless all iterations were used up, |b - A x|^2 < residual_tol. *)
Theorem C105_best : forall n A b iters tol verbose, spd n A -> length b = n -> b <> zeros n -> 0 < tol -> (verbose = true -> iters <> O) ->
  exists x k, conjugate_gradient A b iters verbose tol = (Vec x, k) /\ (k <= iters)%nat /\ ((k < iters)%nat -> gap2 A b x < tol) /\
    krylov A b k x /\ (forall y, krylov A b k y -> energy A b x <= energy A b y).
Proof. exact cg_iterate. Qed.
Print Assumptions C105_best.

(** C105: allowing more iterations never makes the answer worse. *)
Theorem C105_monotone : forall n A b i1 i2 tol x1 x2 k1 k2, spd n A -> length b = n -> b <> zeros n -> 0 < tol -> (i1 <= i2)%nat ->
  conjugate_gradient A b i1 false tol = (Vec x1, k1) -> conjugate_gradient A b i2 false tol = (Vec x2, k2) -> energy A b x2 <= energy A b x1.
Proof. exact cg_monotone. Qed.
Print Assumptions C105_monotone.

(** C105: for b = 0, whose solution is 0, the answer is not a number. *)
Theorem C105_zero_refuted : forall n A iters tol verbose, spd n A -> iters <> O -> fst (conjugate_gradient A (zeros n) iters verbose tol) = NaN.
Proof. exact cg_zero. Qed.
Print Assumptions C105_zero_refuted.

(** C105: without a positive tolerance and with more than n iterations the answer is not a number: the loop goes on after the exact solution. *)
Theorem C105_tolerance_refuted : forall n A b iters tol verbose, spd n A -> length b = n -> tol <= 0 -> (n < iters)%nat ->
  fst (conjugate_gradient A b iters verbose tol) = NaN.
Proof. exact cg_no_tolerance. Qed.
Print Assumptions C105_tolerance_refuted.

(** C105: without iterations the answer is 0, and with verbose the call raises. *)
Theorem C105_no_iteration_raises : forall A b tol,
  conjugate_gradient A b 0 false tol = (Vec (zeros (length b)), 0%nat) /\ conjugate_gradient A b 0 true tol = (Raise, 0%nat).
Proof. exact cg_no_iteration. Qed.
Print Assumptions C105_no_iteration_raises.
