(** Theorems about the benchmark DTLZ2 (C83). *)
From Coq Require Import List Arith ZArith Reals.
From Verif Require Import BM_Model DT_Model DT_Spec DT_Proofs.
Import ListNotations.
Open Scope R_scope.

(** C83: a vector of n_var entries has n_obj objectives; they lie on a sphere whose radius is 1 plus the sum of
    the squared distances of the last n_var - n_obj + 1 entries from 1/2, and are non-negative in the search
    space. *)
Theorem C83_sphere : forall n_var n_obj x, (1 <= n_obj)%nat -> (n_obj - 1 <= n_var)%nat -> length x = n_var ->
  exists F, dtlz2 n_var n_obj x = Some F /\ length F = n_obj /\ square_sum F = sq (1 + g2 (skipn (n_obj - 1) x)) /\ (Forall (fun a => 0 <= a <= 1) x -> Forall (fun a => 0 <= a) F).
Proof. exact dt_sphere. Qed.
Print Assumptions C83_sphere.

(** C83: the Pareto-optimal vectors of the search space are exactly those whose last n_var - n_obj + 1 entries are
    1/2. *)
Theorem C83_pareto_set : forall n_var n_obj x, (1 <= n_obj)%nat -> (n_obj - 1 <= n_var)%nat -> in_box n_var x ->
  (pareto_optimal n_var n_obj x <-> Forall (fun a => a = 1 / 2) (skipn (n_obj - 1) x)).
Proof. exact dt_pareto. Qed.
Print Assumptions C83_pareto_set.

(** C83: their objectives are exactly the points of the unit sphere without negative entries. *)
Theorem C83_pareto_front : forall n_var n_obj v, (1 <= n_obj)%nat -> (n_obj - 1 <= n_var)%nat ->
  ((exists x, pareto_optimal n_var n_obj x /\ dtlz2 n_var n_obj x = Some v) <-> on_front n_obj v).
Proof. exact dt_front. Qed.
Print Assumptions C83_pareto_front.

(** C83: the first call of pareto_front with directions that are not negative and not zero returns objectives of
    Pareto-optimal vectors only. *)
Theorem C83_reported_front : forall n_var n_obj dirs, (1 <= n_obj)%nat -> (n_obj - 1 <= n_var)%nat ->
  Forall (fun v => length v = n_obj /\ Forall (fun a => 0 <= a) v /\ exists a, In a v /\ a <> 0) dirs ->
  Forall (fun o => exists v x, o = Some v /\ pareto_optimal n_var n_obj x /\ dtlz2 n_var n_obj x = Some v) (fst (pareto_front None dirs)).
Proof. exact dt_reported. Qed.
Print Assumptions C83_reported_front.

(** C83: every point of the front is returned for itself as a direction. *)
Theorem C83_front_reachable : forall n_obj v, on_front n_obj v -> generic_sphere v = Some v.
Proof. exact dt_fixed. Qed.
Print Assumptions C83_front_reachable.

(** C83, refuted for later calls of pareto_front: they return the front of the first call; for another number of
    directions it is not the front of the directions given. *)
Theorem C83_second_front_refuted : forall dirs dirs', length dirs <> length dirs' ->
  fst (pareto_front (snd (pareto_front None dirs)) dirs') <> fst (pareto_front None dirs').
Proof. exact dt_cached_wrong. Qed.
Print Assumptions C83_second_front_refuted.

(** C83: a vector of another length raises. *)
Theorem C83_size_raises : forall n_var n_obj x, length x <> n_var -> dtlz2 n_var n_obj x = None.
Proof. exact dt_size_raises. Qed.
Print Assumptions C83_size_raises.

(** C83, refuted for the parameter k of DTLZ2: it is ignored, the problem has 10 variables, unless n_var=None is
    given. *)
Theorem C83_k_refuted : forall n_obj k, dt2_new None n_obj k = dt2_new None n_obj None /\ exists z, dt2_new None n_obj k = Some (10%nat, z).
Proof. exact dt2_k_ignored. Qed.
Print Assumptions C83_k_refuted.
Theorem C83_k_with_none : forall n_obj k, (1 <= k)%nat -> dt2_new (Some None) (Some n_obj) (Some k) = Some ((k + n_obj - 1)%nat, Z.of_nat k).
Proof. exact dt2_k_used. Qed.
Print Assumptions C83_k_with_none.

(** C83, refuted with fewer than n_obj - 1 variables, which the constructor accepts: two of the objectives always
    have the same value. *)
Theorem C83_few_variables_refuted : forall n_var n_obj x F, (1 <= n_var)%nat -> (n_var + 1 < n_obj)%nat -> dtlz2 n_var n_obj x = Some F ->
  length F = n_obj /\ nth_error F 1 = nth_error F (n_var + 1).
Proof. exact dt_few. Qed.
Print Assumptions C83_few_variables_refuted.
(** C83: with still fewer variables every evaluation raises. *)
Theorem C83_few_variables_raises : forall n_var n_obj x, (2 * n_var + 1 < n_obj)%nat -> dtlz2 n_var n_obj x = None.
Proof. exact dt_few_raises. Qed.
Print Assumptions C83_few_variables_raises.
