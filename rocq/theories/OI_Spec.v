(** What is claimed of the encoding of observations. *)
From Coq Require Import QArith ZArith List Bool Lia.
From Verif Require Import OI_Model.
Import ListNotations.
Open Scope list_scope.
Open Scope nat_scope.

(** The result of a single observation. *)
Definition encodes_to (sp : space) (scale : bool) (o : obs) (v : list num) : Prop := observation_input sp None scale [o] = Returns [v].

(** Two results are the same numbers. *)
Definition same_num (a b : num) : Prop :=
  match a, b with Num x, Num y => (x == y)%Q | NaN, NaN => True | PosInf, PosInf => True | NegInf, NegInf => True | _, _ => False end.

(** A row of the space's shape. *)
Definition shaped (sp : space) (o : obs) : Prop :=
  match sp, o with
  | Discrete _, One _ => True
  | BoxF b, Floats l => length l = length b
  | BoxI _ _ b, Ints l => length l = length b
  | MultiBinary n, Ints l => length l = n
  | MultiDiscrete nvec, Ints l => length l = length nvec
  | _, _ => False
  end.

(** A number within its bounds. *)
Definition within (p : bound * bound) (x : Q) : Prop :=
  match fst p with Fin l => (l <= x)%Q | Inf => True end /\ match snd p with Fin h => (x <= h)%Q | Inf => True end.

(** The observation belongs to the space (gym: contains). *)
Definition contains (sp : space) (o : obs) : Prop :=
  match sp, o with
  | Discrete n, One z => (0 <= z < Z.of_nat n)%Z
  | BoxF b, Floats l => Forall2 within b l
  | BoxI _ _ b, Ints l => Forall2 (fun p x => (fst p <= x <= snd p)%Z) b l
  | MultiBinary n, Ints l => length l = n /\ Forall (fun z => z = 0%Z \/ z = 1%Z) l
  | MultiDiscrete nvec, Ints l => Forall2 (fun n z => (0 <= z < Z.of_nat n)%Z) nvec l
  | _, _ => False
  end.

(** The same observation. *)
Definition same_obs (a b : obs) : Prop :=
  match a, b with One x, One y => x = y | Floats l, Floats m => Forall2 Qeq l m | Ints l, Ints m => l = m | _, _ => False end.

(** The indicator of an equality. *)
Definition indicator (z : Z) (i : nat) : num := Num (if Z.eq_dec z (Z.of_nat i) then 1 else 0).

(** Finite bounds, the first below the second. *)
Definition proper (p : bound * bound) : Prop := match p with (Fin l, Fin h) => (l < h)%Q | _ => False end.
(** Finite bounds. *)
Definition finite (p : bound * bound) : Prop := match p with (Fin _, Fin _) => True | _ => False end.
(** Bounds that coincide. *)
Definition pinned (p : bound * bound) : Prop := match p with (Fin l, Fin h) => (l == h)%Q | _ => False end.
(** The place of a number between two others: 0 at the first and 1 at the second. *)
Definition place (l h x : Q) : Q := ((x - l) / (h - l))%Q.

(** Spaces whose scaled observations can be told apart. *)
Definition good_bounds (sp : space) : Prop :=
  match sp with BoxF b => Forall proper b | BoxI sg bits b => (1 <= bits)%Z /\ Forall (fun p => (0 < snd p - fst p < 2 ^ (if sg then bits - 1 else bits))%Z) b | Other => False | MultiDiscrete [] => False | _ => True end.
