(** Specification of solving A x = b. *)
From Coq Require Import List Arith Bool Reals Lra.
From Verif Require Import CG_Model.
Import ListNotations.
Open Scope R_scope.

(** A symmetric positive definite operator on vectors of n numbers. *)
Record spd (n : nat) (A : vec -> vec) : Prop := {
  spd_len : forall x, length x = n -> length (A x) = n;
  spd_add : forall x y, length x = n -> length y = n -> A (add x y) = add (A x) (A y);
  spd_scale : forall c x, length x = n -> A (scale c x) = scale c (A x);
  spd_sym : forall x y, length x = n -> length y = n -> dot (A x) y = dot x (A y);
  spd_pos : forall x, length x = n -> x <> zeros n -> 0 < dot x (A x) }.

(** The square of the length of b - A x. *)
Definition gap2 (A : vec -> vec) (b x : vec) : R := dot (sub b (A x)) (sub b (A x)).
(** The function whose minimum is the solution of A x = b. *)
Definition energy (A : vec -> vec) (b x : vec) : R := 1 / 2 * dot x (A x) - dot b x.
(** c0 b + c1 A b + c2 A (A b) + ... *)
Fixpoint poly (A : vec -> vec) (b : vec) (c : list R) : vec :=
  match c with [] => zeros (length b) | c0 :: c' => add (scale c0 b) (A (poly A b c')) end.
(** The vectors that k products with A can reach. *)
Definition krylov (A : vec -> vec) (b : vec) (k : nat) (y : vec) : Prop := exists c, length c = k /\ y = poly A b c.
