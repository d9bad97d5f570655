(** Vocabulary of the PESA2 theorems. *)
From Coq Require Import List Arith ZArith QArith Bool Permutation.
From Verif Require Import Base Space_Model Space_Spec Opt_Model Opt_Spec Pop_Spec P2_Model.
Import ListNotations.
Open Scope nat_scope.

(** [x] is, number by number, one of the points of [l]. *)
Definition point_in (x : list Q) (l : list (list Q)) : Prop := exists z, In z l /\ Forall2 Qeq z x.

(** The points offered to the replay memory up to generation [k]: the warm-up points and the
    populations reported by the three methods in the first [k] generations. *)
Definition offered (xs : list (list Q)) (pops : list (list (list Q * Q))) (k : nat) : list (list Q) :=
  xs ++ map fst (concat (firstn k pops)).

(** No list shared between the memory and DE changes its numbers: each method has its own process,
    or rounding does not change integers. *)
Definition no_sharing_trouble (p : p2_par) : Prop :=
  p2_proc p = true \/ keeps_ints (p2_method p) (p2_dims p).

(** Numbers of samples that one replay generation adds to the memory at most. *)
Definition survivors (p : p2_par) : nat :=
  p2_mu p (p2_nwolves p) + p2_mu p (p2_npop p) + p2_mu p (p2_nwhales p).

(** The requirements of the documentation on the parameters, and a warm-up set of encoded points
    that is large enough for each population. *)
Record p2_ready (p : p2_par) (ngen replay_every : nat) (xs : list (list Q)) : Prop := {
  rd_dims : wf_dims (p2_dims p);
  rd_ints : discrete_ok (p2_method p) (p2_dims p);
  rd_npop : 4 < p2_npop p;
  rd_nwolves : 1 <= p2_nwolves p;
  rd_nwhales : 1 <= p2_nwhales p;
  rd_R : (0 <= p2_R p /\ p2_R p <= 1)%Q;
  rd_gens : 2 <= ngen /\ 1 <= replay_every <= ngen;
  rd_warmup : p2_npop p <= length xs /\ p2_nwolves p <= length xs /\ p2_nwhales p <= length xs;
  rd_feasible : Forall (feasible (p2_dims p)) xs }.

(** Each method passes at least one survivor on, and the memory never runs full in [k] generations. *)
Definition nothing_dropped (p : p2_par) (size warmup k : nat) : Prop :=
  warmup + k * survivors p <= size /\ 1 <= p2_mu p (p2_nwolves p) /\ 1 <= p2_mu p (p2_npop p) /\ 1 <= p2_mu p (p2_nwhales p).

(** The members of DE among the individuals reported in one replay (wolves first, then DE, then
    whales), and the warm-up points with the DE members of the first [k] replays. *)
Definition de_part (p : p2_par) (pop : list (list Q * Q)) : list (list Q * Q) := firstn (p2_npop p) (skipn (p2_nwolves p) pop).
Definition de_offered (p : p2_par) (xs : list (list Q)) (pops : list (list (list Q * Q))) (k : nat) : list (list Q) :=
  xs ++ map fst (concat (map (de_part p) (firstn k pops))).

(** [ys] are [n] best points of [xs]. *)
Definition best_points (m : mode) (fit : list Q -> Q) (n : nat) (xs ys : list (list Q)) : Prop :=
  length ys = n /\ exists rest, Permutation xs (ys ++ rest) /\ forall y z, In y ys -> In z rest -> as_good m (fit y) (fit z).
