(** Theorems C70 and C71 about PESA. *)
From Coq Require Import List Arith ZArith QArith Bool.
From Verif Require Import Base Space_Model Space_Spec Opt_Model Opt_Spec ES_Model PSO_Model P2_Spec P1_Model P1_Spec P1_Final P1_Demo P1_Wit.
Import ListNotations.
Open Scope nat_scope.

(** C70: with parameters as documented and an inertia weight other than 'globw', PESA always
    returns, whatever the random draws and the memory size (the redraws of a random move until
    the point differs must end). *)
Theorem C70_total expf tau tau' pwf m fit p fuel ngen init attr drs : p1_ready p ngen init -> p1_draws_ok drs -> p1_varied p fuel drs ->
  (forall q, 0 < expf q)%Q -> p1_mech p <> Globw -> exists r, p1_evolute expf tau tau' pwf m fit p fuel attr ngen drs init = Some r.
Proof. exact (p1_total expf tau tau' pwf m fit p fuel ngen init attr drs). Qed.
Print Assumptions C70_total.

(** C70: the returned point is a point of the space that was evaluated, the returned value is its
    fitness; all evaluated points lie in the space; there are warm-up + 3*npop*ngen of them, the
    warm-up points first; the history has one entry per generation, its last entry is the returned
    value; each entry is the fitness of a point evaluated up to that generation. *)
Theorem C70_report expf tau tau' pwf m fit p fuel ngen init attr drs r : p1_ready p ngen init -> p1_draws_ok drs ->
  p1_evolute expf tau tau' pwf m fit p fuel attr ngen drs init = Some r ->
  feasible (p1_dims p) (o_x r) /\ In (o_x r) (o_seen r) /\ (o_y r == fit (o_x r))%Q /\
  Forall (feasible (p1_dims p)) (o_seen r) /\ length (o_seen r) = p1_evals p (length init) ngen /\
  firstn (length init) (o_seen r) = map fst init /\
  length (o_hist r) = ngen /\ nth_error (o_hist r) (ngen - 1) = Some (o_y r) /\
  (forall i v, nth_error (o_hist r) i = Some v ->
     exists z, In z (firstn (p1_evals p (length init) (S i)) (o_seen r)) /\ (v == fit z)%Q).
Proof. exact (fun RD => p1_report expf tau tau' pwf m fit p fuel ngen init attr drs RD r). Qed.
Print Assumptions C70_report.

(** C70: while the memory does not run full, the returned point is the best of all evaluated
    points, entry [i] of the history is at least as good as everything evaluated up to that
    generation, and the history never gets worse. *)
Theorem C70_best expf tau tau' pwf m fit p fuel ngen init attr drs r : p1_ready p ngen init -> p1_draws_ok drs ->
  p1_evolute expf tau tau' pwf m fit p fuel attr ngen drs init = Some r ->
  length init + ngen * p1_survivors p <= p1_size attr (ngen * p1_npop p) ->
  (forall i v, nth_error (o_hist r) i = Some v ->
     forall z, In z (firstn (p1_evals p (length init) (S i)) (o_seen r)) -> as_good m v (fit z)) /\
  never_worse m (o_hist r) /\ best_of m fit (o_seen r) (o_x r) (o_y r).
Proof. exact (fun RD => p1_best expf tau tau' pwf m fit p fuel ngen init attr drs RD r). Qed.
Print Assumptions C70_best.

(** C70: the default memory (memory_size=None) holds 3*npop*ngen + 1 samples; while that
    accommodates the warm-up samples and all survivors, the result is the best evaluated point. *)
Theorem C70_default expf tau tau' pwf m fit p fuel ngen init drs r : p1_ready p ngen init -> p1_draws_ok drs ->
  p1_evolute expf tau tau' pwf m fit p fuel None ngen drs init = Some r ->
  length init + ngen * p1_survivors p <= 3 * (ngen * p1_npop p) + 1 ->
  never_worse m (o_hist r) /\ best_of m fit (o_seen r) (o_x r) (o_y r).
Proof. exact (p1_default expf tau tau' pwf m fit p fuel ngen init drs r). Qed.
Print Assumptions C70_default.

(** C70: the replay exponent: alpha_init in the first generation, then on the line from alpha_init
    to alpha_end at step 1 + i*npop of ngen*npop. *)
Theorem C70_alphas expf tau tau' pwf m fit p fuel ngen init attr drs r : p1_ready p ngen init -> p1_draws_ok drs ->
  p1_evolute expf tau tau' pwf m fit p fuel attr ngen drs init = Some r ->
  length (o_alphas r) = ngen /\ nth_error (o_alphas r) 0 = Some (p1_alpha0 p) /\
  forall i a, nth_error (o_alphas r) (S i) = Some a ->
    (a == p1_alpha0 p + (p1_alpha1 p - p1_alpha0 p) * inject_Z (Z.of_nat (1 + S i * p1_npop p)) / inject_Z (Z.of_nat (ngen * p1_npop p)))%Q.
Proof. exact (p1_alphas expf tau tau' pwf m fit p fuel ngen init attr drs r). Qed.
Print Assumptions C70_alphas.

(** C70: the ES population, the swarm and the chains start from best warm-up samples; the swarm's
    leader is the best of them. *)
Theorem C70_start m fit p ngen init attr st : p1_ready p ngen init -> p1_start m fit p attr ngen init = Some st ->
  best_points m fit (p1_npop p) (map fst init) (map m_ind (t_pop st)) /\
  best_points m fit (p1_npop p) (map fst init) (map q_pos (t_swarm st)) /\
  best_points m fit (p1_chain_count p) (map fst init) (map fst (t_sa st)) /\
  best_of m fit (map fst init) (t_pos st) (as_max m (t_fit st)).
Proof. exact (fun RD => p1_start_best m fit p ngen init attr RD st). Qed.
Print Assumptions C70_start.

Example C70_case : p1_ready (w_par Timew 1 2) 2 (w_init (firstn 2 w_pts)) /\ p1_draws_ok w_draws /\ p1_varied (w_par Timew 1 2) 3 w_draws /\
  (forall q, 0 < w_exp q)%Q /\ p1_mech (w_par Timew 1 2) <> Globw /\
  length (w_init (firstn 2 w_pts)) + 2 * p1_survivors (w_par Timew 1 2) <= p1_size None (2 * p1_npop (w_par Timew 1 2)).
Proof. exact case_few. Qed.
Example C70_run : exists r, p1_evolute w_exp w_tau w_tau w_pw Mmax w_fit (w_par Timew 1 2) 3 None 2 w_draws (w_init (firstn 2 w_pts)) = Some r /\
  (o_x r, o_y r, o_hist r, o_size r) = ([9;9]%Q, 18%Q, [18;18]%Q, Some 10).
Proof. exact w_run_few. Qed.

(** C71: 'globw' divides by the fitness of the leader: when the best warm-up sample has fitness 0,
    the call raises whatever the draws. *)
Theorem C71_globw_raises expf tau tau' pwf m fit p fuel ngen init attr drs x : p1_ready p ngen init -> p1_mech p = Globw ->
  best_of m fit (map fst init) x 0 -> p1_evolute expf tau tau' pwf m fit p fuel attr ngen drs init = None.
Proof. exact (globw_raises expf tau tau' pwf m fit p fuel ngen init attr drs x). Qed.
Print Assumptions C71_globw_raises.
Example C71_globw_case : p1_ready (w_par Globw 1 2) 2 (w_init w_pts) /\ best_of Mmin (fun _ => 0%Q) (map fst (w_init w_pts)) [9; 9]%Q 0%Q.
Proof. exact case_globw. Qed.

(** C71: in a space with one parameter the call raises as soon as an offspring of the first
    generation is to come from crossover. *)
Theorem C71_one_parameter_raises expf tau tau' pwf m fit p fuel ngen init attr drs i : wf_dims (p1_dims p) -> length (p1_dims p) = 1 -> 1 <= ngen ->
  Forall (fun o => feasible (p1_dims p) (fst o)) init -> i < p1_npop p -> (od_rn (e_es (drs 0%nat) i) < p1_cxpb p)%Q ->
  p1_evolute expf tau tau' pwf m fit p fuel attr ngen drs init = None.
Proof. exact (one_parameter_raises expf tau tau' pwf m fit p fuel ngen init attr drs i). Qed.
Print Assumptions C71_one_parameter_raises.
Example C71_one_parameter_case : wf_dims (p1_dims w_line) /\ length (p1_dims w_line) = 1 /\
  Forall (fun o : list Q * list Q => feasible (p1_dims w_line) (fst o)) [([1#3], [1#2]); ([2#3], [1#2])]%Q /\
  (od_rn (e_es (w_draws 0%nat) 0%nat) < p1_cxpb w_line)%Q.
Proof. exact case_line. Qed.

(** C71: in a space with two parameters the ES part creates no new value of an integer parameter:
    whatever the draws, every integer parameter of every point it evaluates has a value that a
    member of its population has there. *)
Theorem C71_two_parameters expf tau tau' p m fit drs pop es s1 : wf_dims (p1_dims p) -> length (p1_dims p) = 2 ->
  Forall (fun a => p1_individual p (m_ind a, m_strat a)) pop -> es_mod expf tau tau' m fit p drs pop = Some (es, s1) ->
  forall x, In x s1 -> known_ints (p1_dims p) (map m_ind pop) x.
Proof. exact (fun W D => es_mod_from expf tau tau' p W D m fit drs pop es s1). Qed.
Print Assumptions C71_two_parameters.
Example C71_two_parameters_case : length (p1_dims (w_par Timew 1 2)) = 2 /\ wf_dims (p1_dims (w_par Timew 1 2)) /\
  Forall (fun a => p1_individual (w_par Timew 1 2) (m_ind a, m_strat a)) (map (fun o => Mem (fst o) (snd o) 0%Q) (w_init w_pts)) /\
  exists es s1, es_mod w_exp w_tau w_tau Mmax w_fit (w_par Timew 1 2) (fun _ => w_es) (map (fun o => Mem (fst o) (snd o) 0%Q) (w_init w_pts)) = Some (es, s1) /\ s1 = [[5; 5]; [5; 5]]%Q.
Proof. exact case_two. Qed.

(** C71: the inertia weight 'timew' decreases from generation to generation only in serial runs;
    with more than three cores the swarm object lives in a worker process and its weight stays at
    9/10 throughout. *)
Theorem C71_weights expf tau tau' pwf m fit p fuel ngen init attr drs r : p1_ready p ngen init -> p1_draws_ok drs ->
  p1_evolute expf tau tau' pwf m fit p fuel attr ngen drs init = Some r -> p1_mech p = Timew ->
  nth_error (o_ws r) 0 = Some (9#10)%Q /\
  (3 < p1_ncores p -> Forall (fun w => w = (9#10)%Q) (o_ws r)) /\
  (p1_ncores p <= 3 -> forall i w, nth_error (o_ws r) (S i) = Some w ->
     (w == (9#10) - (1#2) * inject_Z (Z.of_nat (1 + i * p1_npop p)) / inject_Z (Z.of_nat (ngen * p1_npop p)))%Q).
Proof. exact (weights expf tau tau' pwf m fit p fuel ngen init attr drs r). Qed.
Print Assumptions C71_weights.
Example C71_weights_case : p1_ready (w_par Timew 6 4) 2 (w_init w_pts) /\ 3 < p1_ncores (w_par Timew 6 4).
Proof. exact case_cores. Qed.
Example C71_weights_run : exists r, p1_evolute w_exp w_tau w_tau w_pw Mmax w_fit (w_par Timew 6 4) 3 None 2 w_draws (w_init w_pts) = Some r /\
  o_ws r = [9#10; 9#10]%Q /\ o_y r = 18%Q.
Proof. exact w_run_cores. Qed.

(** C71: the default memory (memory_size=None), documented to accommodate all samples, can run
    full: the best warm-up sample is lost and the history gets worse. *)
Theorem C71_default_refuted : exists p init drs r z, p1_ready p 2 init /\ p1_draws_ok drs /\ p1_mech p = Timew /\
  p1_evolute w_exp w_tau w_tau w_pw Mmax w_fit p 3 None 2 drs init = Some r /\
  In z (map fst init) /\ (o_y r < w_fit z)%Q /\ ~ never_worse Mmax (o_hist r).
Proof. exact default_loses. Qed.
Print Assumptions C71_default_refuted.

(** C71: with memory_size=1 the best warm-up sample never shows in the history. *)
Theorem C71_memory_refuted : exists p init drs r z, p1_ready p 2 init /\ p1_draws_ok drs /\ p1_mech p = Timew /\
  p1_evolute w_exp w_tau w_tau w_pw Mmax w_fit p 3 (Some 1) 2 drs init = Some r /\
  In z (map fst init) /\ Forall (fun v => v < w_fit z)%Q (o_hist r) /\ (o_y r < w_fit z)%Q.
Proof. exact one_loses. Qed.
Print Assumptions C71_memory_refuted.

(** C71: a second call of evolute inherits as memory size the number of samples the first one had
    stored; the same call on a fresh object finds the optimum, the second call loses it. *)
Theorem C71_second_refuted : exists p init drs a b c, p1_ready p 1 init /\ p1_ready p 2 init /\ p1_draws_ok drs /\ p1_mech p = Timew /\
  p1_twice w_exp w_tau w_tau w_pw Mmax w_fit p 3 None 1 drs init 2 drs init = Some (a, b) /\
  p1_evolute w_exp w_tau w_tau w_pw Mmax w_fit p 3 None 2 drs init = Some c /\ (o_y b < o_y c)%Q /\ ~ never_worse Mmax (o_hist b).
Proof. exact second_loses. Qed.
Print Assumptions C71_second_refuted.
