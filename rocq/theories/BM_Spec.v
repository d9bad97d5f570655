(** Vocabulary for the theorems about the classic benchmark functions (C80). *)
From Coq Require Import List Arith Reals.
From Verif Require Import BM_Model.
Import ListNotations.
Open Scope R_scope.

(** What random.random() delivers. *)
Definition random01 (rnd : nat -> R) : Prop := forall i, 0 <= rnd i < 1.

(** No point with as many coordinates has a smaller value than [x], whatever the random numbers. *)
Definition minimum_at (f : (nat -> R) -> list R -> option R) (x : list R) : Prop :=
  forall rnd rnd' z, random01 rnd -> random01 rnd' -> length z = length x ->
    exists y v, f rnd x = Some y /\ f rnd' z = Some v /\ y <= v.

(** The functions whose listed minima are exact (not: decimal approximations, and Quartic). *)
Definition exact_entry (b : bench) : bool := match b with Schwefel | St | Shubert | Quartic => false | _ => true end.
(** The least number of coordinates. *)
Definition least_dim (b : bench) : nat := match b with RastriginScaled => 2 | _ => 1 end.
(** The value of the minimum. *)
Definition least_value (b : bench) : R := match b with Expo | Yang3 | Yang4 => -1 | _ => 0 end.

(** The functions with no other minimum, and the number of coordinates from which this is so. *)
Definition single_minimum (b : bench) : bool := match b with Schwefel | St | Shubert | Quartic | Yang | Qing | Dixonprice => false | _ => true end.
Definition single_dim (b : bench) : nat := match b with Rosenbrock | Bohachevsky | Schaffer | Brown | RastriginScaled => 2 | _ => 1 end.

Definition inside (bd : R * R) (x : list R) : Prop := Forall (fun a => fst bd <= a <= snd bd) x.
