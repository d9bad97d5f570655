(** Specification vocabulary for multi-objective sorting and selection. *)
From Coq Require Import List Arith ZArith QArith Bool.
From Verif Require Import Base.
Import ListNotations.
Open Scope nat_scope.

(** Pareto dominance of fitness vectors (all maximised): [a] is at least as good everywhere
    and strictly better somewhere. *)
Definition dominates (a b : list Q) : Prop :=
  Forall2 Qle b a /\ exists i x y, nth_error a i = Some x /\ nth_error b i = Some y /\ (y < x)%Q.

(** All vectors have [m] components. *)
Definition objectives (m : nat) (ws : list (list Q)) : Prop := Forall (fun w => length w = m) ws.

(** Member [i] of the population dominates member [j]. *)
Definition beats (ws : list (list Q)) (i j : nat) : Prop :=
  exists a b, nth_error ws i = Some a /\ nth_error ws j = Some b /\ dominates a b.

(** There is a chain of [r] members above member [i], each dominating the one below it. *)
Inductive climbs (ws : list (list Q)) : nat -> nat -> Prop :=
| climbs_O i : i < length ws -> climbs ws i 0
| climbs_S i j r : beats ws j i -> climbs ws j r -> climbs ws i (S r).

(** The longest chain above member [i] has [r] members. *)
Definition rank (ws : list (list Q)) (i r : nat) : Prop :=
  climbs ws i r /\ forall r', climbs ws i r' -> r' <= r.

(** [fronts] are the first nondomination levels of the population: no repetition, front [r]
    holds exactly the members of rank [r]. *)
Definition levels (ws : list (list Q)) (fronts : list (list nat)) : Prop :=
  NoDup (concat fronts) /\
  forall r F, nth_error fronts r = Some F -> forall i, In i F <-> rank ws i r.

(** As many levels as needed to have [k] members (all members when there are fewer): at least
    that many members, and fewer without the last level. *)
Definition just_enough (n k : nat) (fronts : list (list nat)) : Prop :=
  Nat.min n k <= length (concat fronts) /\ length (concat (removelast fronts)) < Nat.min n k.

(** [sel] are [k] distinct members, chosen level by level: whoever dominates a selected member
    is selected, and more generally every member of smaller rank is. *)
Definition elitist (ws : list (list Q)) (k : nat) (sel : list nat) : Prop :=
  length sel = k /\ NoDup sel /\ (forall i, In i sel -> i < length ws) /\
  (forall i j, In j sel -> beats ws i j -> In i sel) /\
  (forall i j r s, In j sel -> rank ws i r -> rank ws j s -> r < s -> In i sel).

(** Sum of a vector of fractions. *)
Fixpoint total (l : list Q) : Q := match l with [] => 0%Q | x :: r => (x + total r)%Q end.

(** A vector of [m] non-negative multiples of 1/p with sum 1, given by its numerators. *)
Definition simplex_point (m p : nat) (a : list nat) : Prop :=
  length a = m /\ fold_right Nat.add 0 a = p.
Definition fraction (p a : nat) : Q := (inject_Z (Z.of_nat a) / inject_Z (Z.of_nat p))%Q.

(** Binomial coefficients by Pascal's rule. *)
Fixpoint binom (n k : nat) : nat :=
  match n, k with
  | _, O => 1
  | O, S _ => 0
  | S n', S k' => binom n' k' + binom n' (S k')
  end.

(** [w] has the largest value of objective [f] among the members named by [front]. *)
Definition tops (ws : list (list Q)) (front : list nat) (f i : nat) : Prop :=
  In i front /\ forall j, In j front -> (nth f (nth j ws []) 0 <= nth f (nth i ws []) 0)%Q.

(** ** Crowding distance of a front with fitness vectors [vs], [m] objectives.
    [v] has the smallest or the largest value of objective [f]. *)
Definition extreme (vs : list (list Q)) (f : nat) (v : list Q) : Prop :=
  (forall u, In u vs -> (nth f v 0 <= nth f u 0)%Q) \/ (forall u, In u vs -> (nth f u 0 <= nth f v 0)%Q).

(** [q] is the distance between the two neighbours of [v] in objective [f], as a fraction of
    [m] times the range of that objective. *)
Definition gap (vs : list (list Q)) (m f : nat) (v : list Q) (q : Q) : Prop :=
  exists lo hi mn mx, In lo vs /\ In hi vs /\ In mn vs /\ In mx vs /\
    (nth f lo 0 < nth f v 0)%Q /\ (nth f v 0 < nth f hi 0)%Q /\
    (forall u, In u vs -> (nth f u 0 < nth f v 0)%Q -> (nth f u 0 <= nth f lo 0)%Q) /\
    (forall u, In u vs -> (nth f v 0 < nth f u 0)%Q -> (nth f hi 0 <= nth f u 0)%Q) /\
    (forall u, In u vs -> (nth f mn 0 <= nth f u 0)%Q /\ (nth f u 0 <= nth f mx 0)%Q) /\
    (q == (nth f hi 0 - nth f lo 0) / (inject_Z (Z.of_nat m) * (nth f mx 0 - nth f mn 0)))%Q.

(** No two members of the front have the same value of objective [f]. *)
Definition all_different (vs : list (list Q)) (f : nat) : Prop :=
  forall i j u v, nth_error vs i = Some u -> nth_error vs j = Some v -> (nth f u 0 == nth f v 0)%Q -> i = j.

(** ** Niching: the members 0..n-1 of the last front, member [j] closest to reference point
    [niche j] at distance [dist j]; [before b] members near reference [b] were taken already. *)
Definition taken (niche : nat -> nat) (sel : list nat) (b : nat) : nat :=
  length (filter (fun j => niche j =? b) sel).

(** A shuffle only reorders. *)
Definition shuffles (shuffle : nat -> list nat -> list nat) : Prop :=
  forall t l x, (In x (shuffle t l) <-> In x l) /\ (NoDup l -> NoDup (shuffle t l)).

(** No niche gets ahead: a niche members were taken from exceeds a niche that still has
    untaken members by at most one. *)
Definition balanced (n : nat) (niche : nat -> nat) (before : nat -> nat) (sel : list nat) : Prop :=
  forall i j, In i sel -> j < n -> ~ In j sel ->
    before (niche i) + taken niche sel (niche i) <= before (niche j) + taken niche sel (niche j) + 1.

(** A niche with nobody yet gets its closest member first. *)
Definition closest_first (n : nat) (niche : nat -> nat) (dist : nat -> Q) (before : nat -> nat) (sel : list nat) : Prop :=
  forall i, In i sel -> before (niche i) = 0 ->
    exists j, In j sel /\ niche j = niche i /\ forall j', j' < n -> niche j' = niche i -> (dist j <= dist j')%Q.
