(** What C124 is stated with. *)
From Coq Require Import Reals List Lia Sorted.
From Coquelicot Require Import Coquelicot.
From Verif Require Import RM_Model.
Import ListNotations.
Open Scope R_scope.
(** The centers increase. *)
Definition increasing (ks : table) : Prop := StronglySorted (fun p q => fst p < fst q) ks.
Definition covers (ks : table) (a b : R) : Prop := exists p q, In p ks /\ In q ks /\ fst p <= a /\ b <= fst q.
Definition knot (ks : table) (t : R) : Prop := exists p, In p ks /\ fst p = t.
(** There is a knot strictly between. *)
Definition knot_between (ks : table) (a b : R) : Prop := exists t, knot ks t /\ a < t < b.
(** The function of the table: through every knot, and a line between neighbours. *)
Definition follows (f : R -> R) (ks : table) : Prop :=
  (forall p, In p ks -> f (fst p) = snd p)
  /\ forall l p q r, ks = l ++ p :: q :: r -> forall t, fst p <= t <= fst q -> f t = snd p + (snd q - snd p) / (fst q - fst p) * (t - fst p).
(** The integrals of drum i: of the flux over the coating at angle t, and the change of that of its square from angle 0. *)
Definition current (m : reactor) (i : nat) : R -> R := interpolate (jm m i).
Definition absorbed (m : reactor) (i : nat) (t : R) : R := RInt (current m i) (t - cangle i / 2) (t + cangle i / 2).
Definition squared (m : reactor) (i : nat) (t : R) : R :=
  RInt (fun s => current m i s ^ 2) (t - cangle i / 2) (t + cangle i / 2) - RInt (fun s => current m i s ^ 2) (- cangle i / 2) (cangle i / 2).
Definition zeta (m : reactor) (th : nat -> R) (j : nat) : R :=
  alphas m j 0 + sum_f_R0 (fun i => alphas m j (S i) * (1 - absorbed m i (th i))) 7.
Definition worth (m : reactor) (th : nat -> R) : R := sum_f_R0 (fun j => zeta m th j * squared m j (th j)) 7.
(** Tables that reach far enough around the drum, with knots close to each other. *)
Definition fine (m : reactor) : Prop := forall i, (i < 8)%nat ->
  increasing (jm m i) /\ covers (jm m i) (- PI - cangle i / 2) (PI + cangle i / 2)
  /\ forall a, - PI - cangle i / 2 <= a -> a + cangle i <= PI + cangle i / 2 -> knot_between (jm m i) a (a + cangle i).
(** No end of an integral is a knot. *)
Definition generic (m : reactor) (th : nat -> R) : Prop := forall i, (i < 8)%nat ->
  ~ knot (jm m i) (th i - cangle i / 2) /\ ~ knot (jm m i) (th i + cangle i / 2) /\ ~ knot (jm m i) (- cangle i / 2) /\ ~ knot (jm m i) (cangle i / 2).
(** The angles with that of drum k changed. *)
Definition turn (th : nat -> R) (k : nat) (t : R) : nat -> R := fun i => if Nat.eqb i k then t else th i.
(** The same angles in (-pi, pi]. *)
Definition adjusted (th : nat -> R) : nat -> R := fun i => adj (th i).
