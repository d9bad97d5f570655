(** C24 (bat algorithm) and C49. *)
From Coq Require Import List Arith ZArith QArith.
From Verif Require Import Base Space_Model Space_Spec Opt_Model Opt_Spec Pop_Model Pop_Spec Swarm_Model Swarm_Demo BAT_Model BAT_Proofs BAT_Demo.
Import ListNotations.
Open Scope nat_scope.

(** C24: BAT.evolute returns the best of the 3*n*ngen evaluations it makes after the initial
    population, all of them feasible; entry k of the global history is the best of the first k+1
    generations, entry k of the local history the best of generation k; the returned population is
    the last one evaluated, with its values. *)
Theorem C24_bat expf m fit ds mt : wf_dims ds -> discrete_ok mt ds -> forall n p A0 ngen d1 d2 d3 init r, good_init ds n init ->
  bat_evolute expf m fit ds mt n p A0 ngen d1 d2 d3 init = Some r ->
  best_of m fit (br_seen r) (br_x r) (br_y r) /\ br_init r = init /\
  Forall (feasible ds) (br_seen r) /\ length (br_seen r) = 3 * n * ngen /\
  length (br_hg r) = ngen /\ global_exact m fit (3 * n) 1 (br_seen r) (br_hg r) /\ never_worse m (br_hg r) /\
  nth_error (br_hg r) (ngen - 1) = Some (br_y r) /\
  length (br_hl r) = ngen /\ local_exact m fit (3 * n) 1 (br_seen r) (br_hl r) /\
  length (br_pop r) = n /\ (exists early, br_seen r = early ++ br_pop r) /\ Forall2 (fun z v => (v == fit z)%Q) (br_pop r) (br_pf r).
Proof. exact (bat_best_ok expf m fit ds mt). Qed.
Print Assumptions C24_bat.

(** C24: and it does not raise (the constructor requires five bats). *)
Theorem C24_bat_total expf m fit ds mt : wf_dims ds -> discrete_ok mt ds -> forall n p A0 ngen d1 d2 d3 init,
  4 <= n -> good_init ds n init -> ngen <> 0 ->
  exists r, bat_evolute expf m fit ds mt n p A0 ngen d1 d2 d3 init = Some r.
Proof. exact (bat_total expf m fit ds mt). Qed.
Print Assumptions C24_bat_total.

(** C24 fails for the initial population: it is evaluated, but its best bat (here the user's x0,
    the optimum, value 0) is not kept, and the run returns 3. *)
Theorem C24_bat_initial_refuted : wf_dims bt_ds /\ good_init bt_ds 5 bt_init /\
  exists r, bat_evolute half Mmin bt_fit bt_ds NearestInt 5 bt_par 1 1 bt_1 bt_2 bt_2 bt_init = Some r /\
  In [0]%Q (br_init r) /\ (bt_fit [0]%Q == 0)%Q /\ (br_y r == 3)%Q.
Proof. exact (conj (proj1 bt_ok) (conj (proj2 bt_ok) bt_lost)). Qed.
Print Assumptions C24_bat_initial_refuted.

(** C49: the loudness never grows and stays between 0 and its start value; the pulse rate stays
    between 0 and its maximum r0 (0 <= alpha <= 1, exp of the non-positive arguments used in [0,1]). *)
Theorem C49_loudness expf m fit ds mt n p A0 ngen d1 d2 d3 init r :
  bat_evolute expf m fit ds mt n p A0 ngen d1 d2 d3 init = Some r ->
  (0 <= bp_alpha p)%Q -> (bp_alpha p <= 1)%Q -> (0 <= A0)%Q -> (0 <= bp_r0 p)%Q ->
  (forall k, k < ngen -> (0 <= expf (- bp_gamma p * qnat k))%Q /\ (expf (- bp_gamma p * qnat k) <= 1)%Q) ->
  length (br_As r) = ngen /\ length (br_rs r) = ngen /\
  (forall i j a b, i <= j -> nth_error (br_As r) i = Some a -> nth_error (br_As r) j = Some b -> (0 <= b <= a)%Q /\ (a <= A0)%Q) /\
  Forall (fun q => (0 <= q)%Q /\ (q <= bp_r0 p)%Q) (br_rs r).
Proof. exact (bat_rates expf m fit ds mt n p A0 ngen d1 d2 d3 init r). Qed.
Print Assumptions C49_loudness.

(** The hypotheses are met by the mixed problem of Swarm_Demo.v. *)
Example C24_demo_bat : exists r, bat_evolute half Mmin dm_fit dm_ds NearestInt 4 dm_bp 1 3 dm_b1 dm_b2 dm_b2 dm_init = Some r /\
  (br_y r < 125#4)%Q /\ length (br_seen r) = 36.
Proof. exact dm_bat. Qed.
Example C49_demo : (0 <= bp_alpha dm_bp)%Q /\ (bp_alpha dm_bp <= 1)%Q /\ (0 <= bp_r0 dm_bp)%Q /\ forall q, (0 <= half q)%Q /\ (half q <= 1)%Q.
Proof. repeat split; intro H; discriminate H. Qed.
