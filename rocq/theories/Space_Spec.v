(** Specification vocabulary for parameter spaces (independent of the model's code). *)
From Coq Require Import String List Arith ZArith QArith Bool.
From Verif Require Import Base Space_Model.
Import ListNotations.
Open Scope nat_scope.

(** Equality of Python scalars: numbers by value, strings literally. *)
Definition same (a b : val) : Prop :=
  match a, b with
  | VNum x, VNum y => (x == y)%Q
  | VStr s, VStr t => s = t
  | _, _ => False
  end.

Definition is_int (q : Q) : Prop := exists z : Z, (q == inject_Z z)%Q.

(** [v] is an admissible value of parameter [p]. *)
Definition valid_coord (p : param) (v : val) : Prop :=
  match p with
  | PInt lo hi => exists q, v = VNum q /\ is_int q /\ (lo <= q)%Q /\ (q <= hi)%Q
  | PFloat lo hi => exists q, v = VNum q /\ (lo <= q)%Q /\ (q <= hi)%Q
  | PGrid cs => exists c, In c cs /\ same c v
  end.

(** [x] is an individual of the space [b]: one admissible value per parameter. *)
Definition valid (b : space) (x : list val) : Prop :=
  Forall2 (fun kp v => valid_coord (snd kp) v) b x.

(** A dictionary has distinct keys. *)
Definition dict {A} (d : list (string * A)) : Prop := NoDup (map fst d).

(** No choice of a grid is repeated. *)
Definition no_repeats (cs : list val) : Prop :=
  forall i j a b, nth_error cs i = Some a -> nth_error cs j = Some b -> same a b -> i = j.

Definition grids_no_repeats (b : space) : Prop :=
  forall k cs, In (k, PGrid cs) b -> no_repeats cs.

(** Every number of [v] is inside its interval. *)
Definition inside (b : list (Q * Q)) (v : list Q) : Prop :=
  Forall2 (fun lh x => (fst lh <= x)%Q /\ (x <= snd lh)%Q) b v.

Definition proper_bounds (b : list (Q * Q)) : Prop :=
  Forall (fun lh => (fst lh <= snd lh)%Q) b.

(** Distance of two numbers. *)
Definition dist (x y : Q) : Q := if Qle_bool x y then (y - x)%Q else (x - y)%Q.

(** A well-formed numeric space: lower bound below upper bound, integer variables
    have integer bounds. *)
Definition wf_dims (ds : list dimn) : Prop :=
  Forall (fun d => (d_lo d <= d_hi d)%Q /\ (d_int d = true -> is_int (d_lo d) /\ is_int (d_hi d))) ds.

Definition dim_bounds (ds : list dimn) : list (Q * Q) := map (fun d => (d_lo d, d_hi d)) ds.

(** [v] is a point of the space: inside the bounds, integer variables integral. *)
Definition feasible (ds : list dimn) (v : list Q) : Prop :=
  Forall2 (fun d x => (d_lo d <= x)%Q /\ (x <= d_hi d)%Q /\ (d_int d = true -> is_int x)) ds v.

(** [z] is [q] with its fractional part dropped. *)
Definition drops_fraction (q : Q) (z : Z) : Prop :=
  ((0 <= q)%Q -> (inject_Z z <= q)%Q /\ (q < inject_Z z + 1)%Q) /\
  ((q <= 0)%Q -> (inject_Z z - 1 < q)%Q /\ (q <= inject_Z z)%Q).

(** Nearest point of the interval. *)
Definition clip1 (lo hi x : Q) : Q := if Qltb x lo then lo else if Qltb hi x then hi else x.
