(** What a recurrent policy is expected to compute. *)
From Coq Require Import Reals List Arith.
From Verif Require Import LM_Model.
Import ListNotations.
Open Scope R_scope.

(** Sum of the first n values. *)
Fixpoint sum_to (n : nat) (f : nat -> R) : R := match n with O => 0 | S k => sum_to k f + f k end.
(** Row i, column k of a matrix. *)
Definition entry (m : list row) (i k : nat) : R := nth k (nth i m []) 0.
Definition product (m : list row) (x : nat -> R) (k : nat) : R := sum_to (length m) (fun i => x i * entry m i k).
(** Layer normalisation of w values. *)
Definition mean_of (w : nat) (v : nat -> R) : R := sum_to w v / INR w.
Definition var_of (w : nat) (v : nat -> R) : R := sum_to w (fun k => (v k - mean_of w v) ^ 2) / INR w.
Definition normalised (w : nat) (gain bias : row) (v : nat -> R) (k : nat) : R :=
  (v k - mean_of w v) / sqrt (var_of w v + / 10 ^ 5) * nth k gain 0 + nth k bias 0.

(** The textbook cell: unit j of c' and h', from the features x and the memory (c, h), which a new episode empties. *)
Definition activation (p : params) (x h : nat -> R) (k : nat) : R :=
  match layer_norm p with
  | None => product (weight_x p) x k + product (weight_h p) h k + nth k (bias p) 0
  | Some g => normalised (4 * n_hidden p) (gain_x g) (bias_x g) (product (weight_x p) x) k +
              normalised (4 * n_hidden p) (gain_h g) (bias_h g) (product (weight_h p) h) k + nth k (bias p) 0
  end.
Definition textbook (p : params) (x : nat -> R) (new_episode : bool) (s : (nat -> R) * (nat -> R)) : (nat -> R) * (nat -> R) :=
  let n := n_hidden p in
  let c := if new_episode then fun _ => 0 else fst s in
  let h := if new_episode then fun _ => 0 else snd s in
  let a := activation p x h in
  let c' := fun j => sigmoid (a (n + j)%nat) * c j + sigmoid (a j) * tanh (a (3 * n + j)%nat) in
  let z := match layer_norm p with None => c' | Some g => normalised n (gain_c g) (bias_c g) c' end in
  (c', fun j => sigmoid (a (2 * n + j)%nat) * tanh (z j)).
(** The memory after t steps. *)
Fixpoint recurrence (p : params) (x : nat -> nat -> R) (start : nat -> bool) (s : (nat -> R) * (nat -> R)) (t : nat)
  : (nat -> R) * (nat -> R) :=
  match t with O => s | S k => textbook p (x k) (start k) (recurrence p x start s k) end.

(** The variables have the shapes they are created with. *)
Definition shaped (p : params) : Prop :=
  let w := (4 * n_hidden p)%nat in
  Forall (fun r => length r = w) (weight_x p) /\ Forall (fun r => length r = w) (weight_h p) /\
  length (weight_h p) = n_hidden p /\ length (bias p) = w /\
  match layer_norm p with
  | None => True
  | Some g => length (gain_x g) = w /\ length (bias_x g) = w /\ length (gain_h g) = w /\ length (bias_h g) = w /\
              length (gain_c g) = n_hidden p /\ length (bias_c g) = n_hidden p
  end.
Definition features_fit {O} (features : O -> row) (p : params) : Prop := forall o, length (features o) = length (weight_x p).
(** The memory that a row of the state holds: first the cell state, then the hidden state. *)
Definition memory_of (p : params) (s : row) : (nat -> R) * (nat -> R) := (fun j => nth j s 0, fun j => nth (n_hidden p + j) s 0).
(** What environment e is given: its observations and its flags, in order, and its row of the state. *)
Definition given {O} (n_steps e : nat) (obs : list O) (dones : list bool) (states : list row) (o : nat -> O) (b : nat -> bool) (s : row)
  : Prop :=
  (forall t, (t < n_steps)%nat -> nth_error obs (e * n_steps + t) = Some (o t) /\ nth_error dones (e * n_steps + t) = Some (b t)) /\
  nth_error states e = Some s.
