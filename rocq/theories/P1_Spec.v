(** Vocabulary of the PESA theorems. *)
From Coq Require Import List Arith ZArith QArith Bool Permutation.
From Verif Require Import Base Space_Model Space_Spec Opt_Model Opt_Spec ES_Model PSO_Model SA_Model SA_Spec P1_Model.
Import ListNotations.
Open Scope nat_scope.

(** An individual: a point of the space, and a strategy value in (0, 1/2] for each parameter (the
    warm-up draws them from [1/100, 1/2], later ones lie in [1/nx, 1/2], with [nx] parameters). *)
Definition p1_individual (p : p1_par) (o : list Q * list Q) : Prop :=
  feasible (p1_dims p) (fst o) /\ length (snd o) = length (p1_dims p) /\
  Forall (fun s => 0 < s /\ s <= 1 # 2)%Q (snd o).

(** Chains of simulated annealing: a third of the cores, one in serial runs (up to three cores). *)
Definition p1_chain_count (p : p1_par) : nat := if 3 <? p1_ncores p then p1_ncores p / 3 else 1.

(** The requirements of the documentation (at least two parameters and two individuals, mu below
    npop, npop a multiple of the number of chains, warm-up at least npop). *)
Record p1_ready (p : p1_par) (ngen : nat) (init : list (list Q * list Q)) : Prop := {
  ry_dims : wf_dims (p1_dims p);
  ry_two : 2 <= length (p1_dims p);
  ry_npop : 2 <= p1_npop p;
  ry_mu : forall k, p1_muarg p = Some k -> k < p1_npop p;
  ry_chains : p1_npop p mod p1_chain_count p = 0;
  ry_prob : (p1_cxpb p + p1_mutpb p <= 1)%Q;
  ry_gens : 1 <= ngen;
  ry_warmup : p1_npop p <= length init;
  ry_init : Forall (p1_individual p) init }.

(** The uniform draws behind random moves and new strategies are in [0,1]. *)
Definition p1_draws_ok (drs : nat -> p1_draw) : Prop :=
  (forall g j k, good_draw (snd (e_sa (drs g) j k))) /\
  forall g i k, (0 <= e_str (drs g) i k /\ e_str (drs g) i k <= 1)%Q.

(** Within [fuel] attempts each random move sees two different values of each parameter. *)
Definition p1_varied (p : p1_par) (fuel : nat) (drs : nat -> p1_draw) : Prop :=
  1 <= fuel /\
  forall g j k i d, nth_error (p1_dims p) i = Some d -> (d_lo d == d_hi d)%Q \/
    let dr := snd (e_sa (drs g) j k) in
    exists t1 t2, t1 < fuel /\ t2 < fuel /\
      ~ (gen_coord d (sd_su dr i t1) (sd_sk dr i t1) == gen_coord d (sd_su dr i t2) (sd_sk dr i t2))%Q.

(** Samples that one generation adds to the memory at most: the last and the best state of each chain, the
    survivors of ES and of PSO. *)
Definition p1_survivors (p : p1_par) : nat := 2 * p1_chain_count p + 2 * p1_mu p.

(** Evaluations up to the end of the first [k] generations. *)
Definition p1_evals (p : p1_par) (warmup k : nat) : nat := warmup + 3 * p1_npop p * k.

(** [x] has at every integer parameter a value that a vector of [src] has there. *)
Definition known_ints (ds : list dimn) (src : list (list Q)) (x : list Q) : Prop :=
  forall i d v, nth_error ds i = Some d -> d_int d = true -> nth_error x i = Some v ->
    exists y w, In y src /\ nth_error y i = Some w /\ (v == w)%Q.
