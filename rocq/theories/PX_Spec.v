(** Vocabulary of the PESAX theorems. *)
From Coq Require Import List Arith ZArith QArith Bool.
From Verif Require Import Base Space_Model Space_Spec Opt_Model Opt_Spec P2_Model P2_Spec P1_Model P1_Spec PX_Model.
Import ListNotations.
Open Scope nat_scope.

(** What a call needs: at least two parameters and five individuals, mu below npop, probabilities of
    ES that sum up to at most one, one generation, and starting points in the space: at least npop
    points of x0, or more than npop random ones. *)
Record px_ready (p : px_par) (ngen : nat) (given : bool) (init : list (list Q * list Q)) : Prop := {
  rx_dims : wf_dims (p1_dims (px_1 p));
  rx_two : 2 <= length (p1_dims (px_1 p));
  rx_npop : 5 <= p1_npop (px_1 p);
  rx_mu : forall k, p1_muarg (px_1 p) = Some k -> k < p1_npop (px_1 p);
  rx_prob : (p1_cxpb (px_1 p) + p1_mutpb (px_1 p) <= 1)%Q;
  rx_gens : 1 <= ngen;
  rx_warmup : if given then p1_npop (px_1 p) <= length init else p1_npop (px_1 p) < length init;
  rx_init : Forall (p1_individual (px_1 p)) init }.

(** The uniform draws behind new strategies are in [0,1]. *)
Definition px_draws_ok (drs : nat -> px_draw) : Prop :=
  forall g i k, (0 <= x_str (drs g) i k /\ x_str (drs g) i k <= 1)%Q.

(** Samples that one generation adds to the memory at most: the survivors of the three methods. *)
Definition px_survivors (p : px_par) : nat := 3 * p1_mu (px_1 p).

(** Evaluations up to the end of the first [k] generations: ES and PSO evaluate npop points each, DE
    npop trial vectors and, again, its npop targets. *)
Definition px_evals (p : px_par) (start k : nat) : nat := start + 4 * p1_npop (px_1 p) * k.
