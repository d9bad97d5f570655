(** Vocabulary for C62/C63 about EPSO. *)
From Coq Require Import List Arith ZArith QArith.
From Verif Require Import Base Space_Model Space_Spec Opt_Model Opt_Spec Swarm_Model HCLPSO_Model EPSO_Model.
Import ListNotations.
Open Scope nat_scope.

(** Every velocity component is at most half the range of its variable. *)
Definition half_slow (ds : list dimn) (v : list Q) : Prop :=
  Forall2 (fun d c => (- ((d_hi d - d_lo d) * (1#2)) <= c)%Q /\ (c <= (d_hi d - d_lo d) * (1#2))%Q) ds v.

(** An event: which particle used which strategy, and whether it improved on its personal best.  *)
Definition event : Type := (nat * nat * bool)%type.
Definition uses (s : nat) (l : list event) : nat := length (filter (fun e => snd (fst e) =? s) l).
Definition wins (s : nat) (l : list event) : nat := length (filter (fun e => (snd (fst e) =? s) && snd e) l).

(** Success rate of a strategy over some events (0 when unused), plus a hundredth; its share among the five. *)
Definition credit (s : nat) (l : list event) : Q := (qnat (wins s l) / qnat (max 1 (uses s l)) + (1#100))%Q.
Definition share (s : nat) (l : list event) : Q :=
  (credit s l / (credit 0 l + credit 1 l + credit 2 l + credit 3 l + credit 4 l))%Q.

(** The events of generations a, a+1, ..., b-1. *)
Definition during {A} (a b : nat) (gens : list (list A)) : list A := concat (firstn (b - a) (skipn a gens)).

(** The last generation, up to [k], at which a learning period of [lp] generations ends. *)
Definition period_end (lp k : nat) : nat := lp * (k / lp).

(** The value of particle [i] in generation [k] (block [k+1] of the log) is better than any before. *)
Definition improves (m : mode) (fit : list Q -> Q) (n : nat) (log : list (list Q)) (k i : nat) : Prop :=
  exists x, nth_error log (n * S k + i) = Some x /\
  forall b z, b <= k -> nth_error log (n * b + i) = Some z -> (as_min m (fit x) < as_min m (fit z))%Q.

(** Sum of the first [s] numbers. *)
Fixpoint upto (s : nat) (l : list Q) : Q :=
  match s, l with S s', a :: r => (a + upto s' r)%Q | _, _ => 0%Q end.
