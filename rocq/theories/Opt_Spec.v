(** Specification vocabulary for optimizers. *)
From Coq Require Import List Arith ZArith QArith Bool.
From Verif Require Import Base Space_Model Opt_Model.
Import ListNotations.
Open Scope nat_scope.

(** [a] is at least as good as [b] for the given optimization mode. *)
Definition as_good (m : mode) (a b : Q) : Prop :=
  match m with Mmin => (a <= b)%Q | Mmax => (b <= a)%Q end.

(** [(x, y)] is the best of the evaluated points [seen]: [x] was evaluated, [y] is its
    objective value, and no evaluated point has a better value. *)
Definition best_of {X} (m : mode) (fit : X -> Q) (seen : list X) (x : X) (y : Q) : Prop :=
  In x seen /\ (y == fit x)%Q /\ forall z, In z seen -> as_good m y (fit z).

(** The fitness depends on the numbers only, not on how they are written. *)
Definition respects (fit : list Q -> Q) : Prop := forall x y, Forall2 Qeq x y -> (fit x == fit y)%Q.

(** A history of values that never gets worse. *)
Definition never_worse (m : mode) (h : list Q) : Prop :=
  forall i j a b, i <= j -> nth_error h i = Some a -> nth_error h j = Some b -> as_good m b a.

(** The integer transformation does not perturb integer values: nearest integer, or there are
    no integer variables. *)
Definition keeps_ints (mt : imethod) (ds : list dimn) : Prop :=
  mt = NearestInt \/ (mt <> OtherMethod /\ Forall (fun d => d_int d = false) ds).
