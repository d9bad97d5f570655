(** What the probability distributions should compute, without reference to the model. *)
From Coq Require Import List Arith ZArith Reals Lra.
Import ListNotations.
Open Scope R_scope.

Definition total (l : list R) : R := fold_right Rplus 0 l.
Definition product (l : list R) : R := fold_right Rmult 1 l.
(** The actions 0..n-1. *)
Definition actions (n : nat) : list nat := seq 0 n.

(** All actions but i. *)
Definition others (n i : nat) : list nat := filter (fun j => negb (j =? i)%nat) (actions n).

(** The probability of action i under logits l. *)
Definition prob (l : list R) (i : nat) : R := exp (nth i l 0) / total (map exp l).
(** Shannon's entropy and the Kullback-Leibler divergence of probabilities on 0..n-1. *)
Definition shannon (n : nat) (p : nat -> R) : R := - total (map (fun i => p i * ln (p i)) (actions n)).
Definition divergence (n : nat) (p q : nat -> R) : R := total (map (fun i => p i * ln (p i / q i)) (actions n)).

(** All tuples of actions of a MultiDiscrete space. *)
Fixpoint tuples (nvec : list nat) : list (list nat) :=
  match nvec with [] => [[]] | n :: t => flat_map (fun a => map (cons a) (tuples t)) (actions n) end.
(** The logits of the parts, one after the other: [ls] cut into parts of sizes [nvec] is [flat]. *)
Definition parts (nvec : list nat) (flat : list R) (ls : list (list R)) : Prop := flat = concat ls /\ map (@length R) ls = nvec.
(** Probability of a tuple: the parts are independent. *)
Definition tuple_prob (ls : list (list R)) (x : list nat) : R := product (map (fun lx => prob (fst lx) (snd lx)) (combine ls x)).

(** Density of the normal distribution with mean m and standard deviation s. *)
Definition normal (m s x : R) : R := 1 / (s * sqrt (2 * PI)) * exp (- ((x - m) * (x - m)) / (2 * (s * s))).
(** Density of independent coordinates. *)
Definition density (ms ss xs : list R) : R := product (map (fun t => normal (fst t) (fst (snd t)) (snd (snd t))) (combine ms (combine ss xs))).

(** A distribution on finitely many points with weights: its averages, and when its coordinates have
    means [ms] and standard deviations [ss]. *)
Definition average (d : list (R * list R)) (f : list R -> R) : R := total (map (fun wx => fst wx * f (snd wx)) d).
Definition has_moments (d : list (R * list R)) (ms ss : list R) : Prop :=
  average d (fun _ => 1) = 1 /\ (forall w x, In (w, x) d -> length x = length ms) /\
  forall j, (j < length ms)%nat ->
    average d (fun x => nth j x 0) = nth j ms 0 /\ average d (fun x => (nth j x 0 - nth j ms 0) * (nth j x 0 - nth j ms 0)) = nth j ss 0 * nth j ss 0.

(** All vectors of n bits, and the probability of one of them when bit j is 1 with probability p_j. *)
Fixpoint bits (n : nat) : list (list nat) := match n with O => [[]] | S k => map (cons 0%nat) (bits k) ++ map (cons 1%nat) (bits k) end.
Definition logistic (x : R) : R := exp x / (1 + exp x).
Definition bit_prob (p : R) (b : nat) : R := match b with O => 1 - p | _ => p end.
Definition bits_prob (l : list R) (x : list nat) : R := product (map (fun lx => bit_prob (logistic (fst lx)) (snd lx)) (combine l x)).
