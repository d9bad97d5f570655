(** What returns and advantages should be. *)
From Coq Require Import List Arith ZArith QArith Bool.
From Verif Require Import Base.
Import ListNotations.
Open Scope nat_scope.

Fixpoint qpow (g : Q) (k : nat) : Q := match k with O => 1%Q | S k' => (g * qpow g k')%Q end.
(** sum of f(0), ..., f(k). *)
Fixpoint sum_to (f : nat -> Q) (k : nat) : Q := match k with O => f 0 | S k' => (sum_to f k' + f k)%Q end.
(** x(t) + g x(t+1) + ... + g^k x(t+k). *)
Definition dsum (g : Q) (x : nat -> Q) (t k : nat) : Q := sum_to (fun i => qpow g i * x (t + i)%nat)%Q k.
(** c(t+1) c(t+2) ... c(t+k). *)
Fixpoint iprod (c : nat -> Q) (t k : nat) : Q := match k with O => 1%Q | S k' => (iprod c t k' * c (t + k)%nat)%Q end.

(** In a rollout of [n] steps, step [h] is the last one of the episode that step [t] belongs to,
    as far as the rollout goes: the first step from [t] on that ends an episode, or the last. *)
Definition horizon (n : nat) (ends : nat -> bool) (t h : nat) : Prop :=
  t <= h < n /\ (forall k, t <= k < h -> ends k = false) /\ (ends h = true \/ h = n - 1).

(** An [n] by [k] array and its elements. *)
Definition rect {A} (n k : nat) (m : list (list A)) : Prop := length m = n /\ Forall (fun r => length r = k) m.
Definition entry {A} (d : A) (m : list (list A)) (t e : nat) : A := nth e (nth t m []) d.

(** Value of the state before step [s] ([s = n] after the rollout), and whether step [s] ended an
    episode, when [dones] has the flags before each step and [final] those after the rollout. *)
Definition value_at (n : nat) (values : list (list Q)) (lastv : list Q) (e s : nat) : Q := if s <? n then entry 0%Q values s e else nth e lastv 0%Q.
Definition ended (n : nat) (dones : list (list bool)) (final : list bool) (e s : nat) : bool := if S s <? n then entry false dones (S s) e else nth e final false.
(** Temporal difference error: r(t) + g V(t+1) - V(t), without V(t+1) when the step ends an
    episode. *)
Definition td (g : Q) (r V : nat -> Q) (ends : nat -> bool) (t : nat) : Q := (r t + g * (if ends t then 0 else V (S t)) - V t)%Q.
(** Discounted sum of the rewards of the episode from [t] to its last step [h], plus the discounted
    value [b] of what follows if step [h] does not end it. *)
Definition ret_spec (g : Q) (r : nat -> Q) (ends : nat -> bool) (b : Q) (t h : nat) : Q :=
  (dsum g r t (h - t)%nat + (if ends h then 0 else qpow g (S (h - t))%nat * b))%Q.

(** Retrace: sum over i of g^i c(t+1)...c(t+i) delta(t+i). *)
Definition retrace_sum (g : Q) (c delta : nat -> Q) (t k : nat) : Q := sum_to (fun i => qpow g i * iprod c t i * delta (t + i)%nat)%Q k.

(** Totals of the episodes finished in a stream of (reward, flag) where a flag marks the first
    step of a new episode; [acc] is what the running episode has so far.  The second component is
    the total of the episode running at the end. *)
Fixpoint episode_totals (acc : Q) (stream : list (Q * bool)) : list Q * Q :=
  match stream with
  | [] => ([], acc)
  | (r, true) :: l => let '(ts, a) := episode_totals r l in (acc :: ts, a)
  | (r, false) :: l => episode_totals (acc + r)%Q l
  end.
(** The same where a flag marks the last step of an episode. *)
Fixpoint ending_totals (acc : Q) (stream : list (Q * bool)) : list Q * Q :=
  match stream with
  | [] => ([], acc)
  | (r, true) :: l => let '(ts, a) := ending_totals 0%Q l in ((acc + r)%Q :: ts, a)
  | (r, false) :: l => ending_totals (acc + r)%Q l
  end.
(** Equal lists and equal numbers. *)
Definition qeq_pair (a b : list Q * Q) : Prop := Forall2 Qeq (fst a) (fst b) /\ (snd a == snd b)%Q.
(** In a batch of consecutive runs of [m] steps, the element of environment [e] at step [s]. *)
Definition at_batch {A} (d : A) (m : nat) (l : list A) (e s : nat) : A := nth (e * m + s) l d.
