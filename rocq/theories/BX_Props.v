(** C136: the benchmarks alpinen1, alpinen2 and ridge. *)
From Coq Require Import List Reals Permutation.
From Verif Require Import BM_Model BX_Model BX_Spec BX_Proofs.
Import ListNotations.
Open Scope R_scope.

(** C136: alpinen1 is never negative, and zero exactly if every coordinate is zero or has the sine -0.1. *)
Theorem C136_alpine1 : forall l, 0 <= alpinen1 l /\ (alpinen1 l = 0 <-> Forall (fun x => x = 0 \/ sin x = - (1 / 10)) l).
Proof. exact a1_zero. Qed.
Print Assumptions C136_alpine1.
(** C136, finding: the origin is not its only minimum: in every dimension there is another one less than 1 away in every coordinate. *)
Theorem C136_alpine1_unique_refuted : forall n, exists t, t <> 0 /\ -1 < t < 0 /\ alpinen1 (repeat t n) = 0 /\ alpinen1 (repeat 0 n) = 0.
Proof. exact a1_others. Qed.
Print Assumptions C136_alpine1_unique_refuted.
(** C136: the order of the coordinates does not matter to alpinen1. *)
Theorem C136_alpine1_order : forall l l', Permutation l l' -> alpinen1 l = alpinen1 l'.
Proof. exact a1_perm. Qed.
Print Assumptions C136_alpine1_order.
(** C136: alpinen2 is the product of sqrt(x) sin(x) if no coordinate is negative, and raises otherwise. *)
Theorem C136_alpine2 : forall l, (Forall (fun x => 0 <= x) l -> alpinen2 l = Some (alpine_product l)) /\ (Exists (fun x => x < 0) l -> alpinen2 l = None).
Proof. exact a2_value. Qed.
Print Assumptions C136_alpine2.
(** C136: the square of its value is at most the product of the coordinates. *)
Theorem C136_alpine2_bound : forall l v, alpinen2 l = Some v -> v * v <= volume l.
Proof. exact a2_bound. Qed.
Print Assumptions C136_alpine2_bound.
(** C136: for coordinates put together the values are multiplied. *)
Theorem C136_alpine2_parts : forall l l' v v', alpinen2 l = Some v -> alpinen2 l' = Some v' -> alpinen2 (l ++ l') = Some (v * v').
Proof. exact a2_app. Qed.
Print Assumptions C136_alpine2_parts.
(** C136, finding: without bounds alpinen2 has neither a minimum nor a maximum. *)
Theorem C136_alpine2_optimum_refuted : forall n M, (1 <= n)%nat -> (exists z v, length z = n /\ Forall (fun x => 0 <= x) z /\ alpinen2 z = Some v /\ v < M) /\
  exists z v, length z = n /\ Forall (fun x => 0 <= x) z /\ alpinen2 z = Some v /\ M < v.
Proof. exact a2_unbounded. Qed.
Print Assumptions C136_alpine2_optimum_refuted.
(** C136: ridge is the first coordinate plus the euclidean norm of the others; without coordinates it raises. *)
Theorem C136_ridge : forall x l, ridge (x :: l) = Some (x + sqrt (norm2 l)) /\ ridge [] = None.
Proof. exact ridge_value. Qed.
Print Assumptions C136_ridge.
(** C136: it is at least the first coordinate, which it is exactly if all others are zero. *)
Theorem C136_ridge_least : forall x l v, ridge (x :: l) = Some v -> x <= v /\ (v = x <-> Forall (fun y => y = 0) l).
Proof. exact ridge_least. Qed.
Print Assumptions C136_ridge_least.
(** C136: scaling all coordinates scales the value. *)
Theorem C136_ridge_scale : forall k l v, 0 <= k -> ridge l = Some v -> ridge (map (Rmult k) l) = Some (k * v).
Proof. exact ridge_scale. Qed.
Print Assumptions C136_ridge_scale.
(** C136, finding: without bounds ridge has no minimum. *)
Theorem C136_ridge_minimum_refuted : forall n M, (1 <= n)%nat -> exists z v, length z = n /\ ridge z = Some v /\ v < M.
Proof. exact ridge_none. Qed.
Print Assumptions C136_ridge_minimum_refuted.
