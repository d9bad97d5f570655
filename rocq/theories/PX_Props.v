(** Theorems C84 and C85 about PESAX. *)
From Coq Require Import List Arith ZArith QArith Bool.
From Verif Require Import Base Space_Model Space_Spec Opt_Model Opt_Spec ES_Model PSO_Model P2_Model P2_Spec P1_Model P1_Spec P1_Demo PX_Model PX_Spec PX_Final PX_Demo PX_Wit.
Import ListNotations.
Open Scope nat_scope.

(** C84: with parameters as documented and an inertia weight other than 'globw', PESAX always
    returns, whatever the random draws and the memory size. *)
Theorem C84_total expf tau tau' pwf m fit p ngen given init attr drs : px_ready p ngen given init -> respects fit -> px_draws_ok drs ->
  (forall q, 0 < expf q)%Q -> p1_mech (px_1 p) <> Globw -> exists r, px_evolute expf tau tau' pwf m fit p attr ngen given drs init = Some r.
Proof. exact (px_total expf tau tau' pwf m fit p ngen given init attr drs). Qed.
Print Assumptions C84_total.

(** C84: the returned point is a point of the space whose numbers were evaluated, the returned value
    is its fitness; all evaluated points lie in the space; there are warm-up + 4*npop*ngen of them,
    the warm-up points first; the history has one entry per generation, its last entry is the
    returned value; each entry is the fitness of a point evaluated up to that generation. *)
Theorem C84_report expf tau tau' pwf m fit p ngen given init attr drs r : px_ready p ngen given init -> respects fit -> px_draws_ok drs ->
  px_evolute expf tau tau' pwf m fit p attr ngen given drs init = Some r ->
  feasible (p1_dims (px_1 p)) (px_x r) /\ point_in (px_x r) (px_seen r) /\ (px_y r == fit (px_x r))%Q /\
  Forall (feasible (p1_dims (px_1 p))) (px_seen r) /\ length (px_seen r) = px_evals p (length init) ngen /\
  firstn (length init) (px_seen r) = map fst init /\
  length (px_hist r) = ngen /\ nth_error (px_hist r) (ngen - 1) = Some (px_y r) /\
  (forall i v, nth_error (px_hist r) i = Some v ->
     exists z, In z (firstn (px_evals p (length init) (S i)) (px_seen r)) /\ (v == fit z)%Q).
Proof. exact (fun RD => px_report expf tau tau' pwf m fit p ngen given init attr drs RD r). Qed.
Print Assumptions C84_report.

(** C84: while the memory does not run full, the returned value is the best of all evaluations,
    entry [i] of the history is at least as good as everything evaluated up to that generation, and
    the history never gets worse. *)
Theorem C84_best expf tau tau' pwf m fit p ngen given init attr drs r : px_ready p ngen given init -> respects fit -> px_draws_ok drs ->
  px_evolute expf tau tau' pwf m fit p attr ngen given drs init = Some r ->
  length init + ngen * px_survivors p <= p2_size attr (ngen * p1_npop (px_1 p)) ->
  (forall i v, nth_error (px_hist r) i = Some v ->
     forall z, In z (firstn (px_evals p (length init) (S i)) (px_seen r)) -> as_good m v (fit z)) /\
  never_worse m (px_hist r) /\ (forall z, In z (px_seen r) -> as_good m (px_y r) (fit z)).
Proof. exact (fun RD => px_best expf tau tau' pwf m fit p ngen given init attr drs RD r). Qed.
Print Assumptions C84_best.

(** C84: the default memory (memory_size=None) holds 3*npop*ngen + 1 samples; while that
    accommodates the warm-up samples and all survivors, the result is the best evaluated point. *)
Theorem C84_default expf tau tau' pwf m fit p ngen given init drs r : px_ready p ngen given init -> respects fit -> px_draws_ok drs ->
  px_evolute expf tau tau' pwf m fit p None ngen given drs init = Some r ->
  length init + ngen * px_survivors p <= 3 * (ngen * p1_npop (px_1 p)) + 1 ->
  never_worse m (px_hist r) /\ (forall z, In z (px_seen r) -> as_good m (px_y r) (fit z)).
Proof. exact (px_default expf tau tau' pwf m fit p ngen given init drs r). Qed.
Print Assumptions C84_default.

(** C84: the replay exponent: alpha_init in the first generation, then on the line from alpha_init
    to alpha_end at step 1 + i*npop of ngen*npop. *)
Theorem C84_alphas expf tau tau' pwf m fit p ngen given init attr drs r : px_ready p ngen given init -> respects fit -> px_draws_ok drs ->
  px_evolute expf tau tau' pwf m fit p attr ngen given drs init = Some r ->
  length (px_alphas r) = ngen /\ nth_error (px_alphas r) 0 = Some (p1_alpha0 (px_1 p)) /\
  forall i a, nth_error (px_alphas r) (S i) = Some a ->
    (a == p1_alpha0 (px_1 p) + (p1_alpha1 (px_1 p) - p1_alpha0 (px_1 p)) * inject_Z (Z.of_nat (1 + S i * p1_npop (px_1 p))) / inject_Z (Z.of_nat (ngen * p1_npop (px_1 p))))%Q.
Proof. exact (px_exponents expf tau tau' pwf m fit p ngen given init attr drs r). Qed.
Print Assumptions C84_alphas.

(** C84: the populations of ES, DE and PSO (positions and local best positions) are npop best warm-up
    samples each; the swarm's leader is the best of them. *)
Theorem C84_start m fit p ngen given init attr st : px_ready p ngen given init -> px_start m fit p attr ngen given init = Some st ->
  best_points m fit (p1_npop (px_1 p)) (map fst init) (map (fun a => h_get (y_heap st) (xm_ind a)) (y_pop st)) /\
  best_points m fit (p1_npop (px_1 p)) (map fst init) (map (h_get (y_heap st)) (y_de st)) /\
  best_points m fit (p1_npop (px_1 p)) (map fst init) (map (fun a => h_get (y_heap st) (xp_pos a)) (y_swarm st)) /\
  best_points m fit (p1_npop (px_1 p)) (map fst init) (map (fun a => h_get (y_heap st) (xp_lpos a)) (y_swarm st)) /\
  best_of m fit (map fst init) (h_get (y_heap st) (y_lead st)) (as_max m (y_lfit st)).
Proof. exact (px_start_best m fit p ngen given init attr st). Qed.
Print Assumptions C84_start.

(** C84: every particle starts with a tenth of its position as its speed. *)
Theorem C84_speeds m fit p ngen given init attr st : px_ready p ngen given init -> px_start m fit p attr ngen given init = Some st ->
  map xp_vel (y_swarm st) = map (fun a => map (fun q => (1 # 10) * q)%Q (h_get (y_heap st) (xp_pos a))) (y_swarm st).
Proof. exact (px_start_speeds m fit p ngen given init attr st). Qed.
Print Assumptions C84_speeds.

Example C84_case : px_ready (x_par Timew 1) 2 false (w_init (firstn 6 x_pts)) /\ respects w_fit /\ px_draws_ok x_draws /\
  (forall q, 0 < w_exp q)%Q /\ p1_mech (px_1 (x_par Timew 1)) <> Globw /\
  length (w_init (firstn 6 x_pts)) + 2 * px_survivors (x_par Timew 1) <= p2_size None (2 * p1_npop (px_1 (x_par Timew 1))).
Proof. exact (conj (x_few 2 (le_S _ _ (le_n 1))) (conj w_fit_respects (conj x_draws_ok (conj w_exp_pos (conj (fun e : Timew = Globw => match e with eq_refl => I end) x_few_room))))). Qed.
Example C84_run : exists r, px_evolute w_exp w_tau w_tau w_pw Mmax w_fit (x_par Timew 1) None 2 false x_draws (w_init (firstn 6 x_pts)) = Some r /\
  (px_x r, px_y r, px_hist r, px_size r) = ([9;9]%Q, 18%Q, [18;18]%Q, Some 9).
Proof. exact x_run_few. Qed.

(** C85: 'globw' divides by the fitness of the leader: when the best warm-up sample has fitness 0,
    the call raises whatever the draws. *)
Theorem C85_globw_raises expf tau tau' pwf m fit p ngen given init attr drs x : px_ready p ngen given init -> respects fit -> p1_mech (px_1 p) = Globw ->
  best_of m fit (map fst init) x 0 -> px_evolute expf tau tau' pwf m fit p attr ngen given drs init = None.
Proof. exact (px_globw expf tau tau' pwf m fit p ngen given init attr drs x). Qed.
Print Assumptions C85_globw_raises.
Example C85_globw_case : px_ready (x_par Globw 1) 2 false (w_init (firstn 6 x_pts)) /\
  best_of Mmin (fun _ => 0%Q) (map fst (w_init (firstn 6 x_pts))) [9; 9]%Q 0%Q /\ respects (fun _ => 0%Q).
Proof. exact x_globw_case. Qed.

(** C85: in a space with one parameter the call raises as soon as an offspring of the first
    generation is to come from crossover. *)
Theorem C85_one_parameter_raises expf tau tau' pwf m fit p ngen given init attr drs i :
  wf_dims (p1_dims (px_1 p)) -> length (p1_dims (px_1 p)) = 1 -> 1 <= ngen ->
  Forall (fun o => feasible (p1_dims (px_1 p)) (fst o)) init -> i < p1_npop (px_1 p) -> (od_rn (x_es (drs 0%nat) i) < p1_cxpb (px_1 p))%Q ->
  px_evolute expf tau tau' pwf m fit p attr ngen given drs init = None.
Proof. exact (px_one_parameter expf tau tau' pwf m fit p ngen given init attr drs i). Qed.
Print Assumptions C85_one_parameter_raises.
Example C85_one_parameter_case : wf_dims (p1_dims (px_1 x_line)) /\ length (p1_dims (px_1 x_line)) = 1 /\
  Forall (fun o : list Q * list Q => feasible (p1_dims (px_1 x_line)) (fst o)) (repeat ([1#3], [1#2]) 6)%Q /\
  (od_rn (x_es (x_draws 0%nat) 0%nat) < p1_cxpb (px_1 x_line))%Q.
Proof. exact x_line_case. Qed.

(** C85: warmup=npop, allowed by the documentation ("must be equal or more than npop"), raises. *)
Theorem C85_warmup_raises expf tau tau' pwf m fit p ngen init attr drs : length init = p1_npop (px_1 p) ->
  px_evolute expf tau tau' pwf m fit p attr ngen false drs init = None.
Proof. exact (px_warmup expf tau tau' pwf m fit p ngen init attr drs). Qed.
Print Assumptions C85_warmup_raises.

(** C85: the inertia weight 'timew' decreases from generation to generation only in serial runs;
    with more than three cores the swarm object lives in a worker process and its weight stays at
    9/10 throughout. *)
Theorem C85_weights expf tau tau' pwf m fit p ngen given init attr drs r : px_ready p ngen given init -> respects fit -> px_draws_ok drs ->
  px_evolute expf tau tau' pwf m fit p attr ngen given drs init = Some r -> p1_mech (px_1 p) = Timew ->
  nth_error (px_ws r) 0 = Some (9#10)%Q /\
  (3 < p1_ncores (px_1 p) -> Forall (fun w => w = (9#10)%Q) (px_ws r)) /\
  (p1_ncores (px_1 p) <= 3 -> forall i w, nth_error (px_ws r) (S i) = Some w ->
     (w == (9#10) - (1#2) * inject_Z (Z.of_nat (1 + i * p1_npop (px_1 p))) / inject_Z (Z.of_nat (ngen * p1_npop (px_1 p))))%Q).
Proof. exact (px_weights expf tau tau' pwf m fit p ngen given init attr drs r). Qed.
Print Assumptions C85_weights.
Example C85_weights_run : exists r, px_evolute w_exp w_tau w_tau w_pw Mmax w_fit (x_par Timew 6) None 2 false x_draws (w_init (firstn 6 x_pts)) = Some r /\
  (px_y r, px_ws r) = (18%Q, [9#10; 9#10]%Q).
Proof. exact x_run_cores. Qed.

(** C85: points of x0 are not compared with the bounds: one outside the space can be returned as the
    best individual. *)
Theorem C85_outside_refuted : exists p x0 drs r, px_draws_ok drs /\ respects w_fit /\ px_ready p 1 true (tl x0) /\ p1_mech (px_1 p) = Timew /\
  px_evolute w_exp w_tau w_tau w_pw Mmax w_fit p None 1 true drs x0 = Some r /\ px_x r = [20; 20]%Q /\ ~ feasible (p1_dims (px_1 p)) (px_x r).
Proof. exact px_outside. Qed.
Print Assumptions C85_outside_refuted.

(** C85: the default memory (memory_size=None), documented to accommodate all samples, can run
    full: the returned value is worse than that of a warm-up sample. *)
Theorem C85_default_refuted : exists p init drs r z, px_ready p 1 false init /\ px_draws_ok drs /\ respects w_fit /\ p1_mech (px_1 p) = Timew /\
  px_evolute w_exp w_tau w_tau w_pw Mmax w_fit p None 1 false drs init = Some r /\
  In z (map fst init) /\ (px_y r < w_fit z)%Q.
Proof. exact px_default_loses. Qed.
Print Assumptions C85_default_refuted.

(** C85: with memory_size=1 the best warm-up sample never shows in the history. *)
Theorem C85_memory_refuted : exists p init drs r z, px_ready p 2 false init /\ px_draws_ok drs /\ respects w_fit /\ p1_mech (px_1 p) = Timew /\
  px_evolute w_exp w_tau w_tau w_pw Mmax w_fit p (Some 1) 2 false drs init = Some r /\
  In z (map fst init) /\ Forall (fun v => v < w_fit z)%Q (px_hist r) /\ (px_y r < w_fit z)%Q.
Proof. exact px_one_loses. Qed.
Print Assumptions C85_memory_refuted.

(** C85: a second call of evolute inherits as memory size the number of samples the first one had
    stored; the same call on a fresh object finds the optimum, the second call loses it. *)
Theorem C85_second_refuted : exists p init drs a b c, px_ready p 1 false init /\ px_ready p 2 false init /\ px_draws_ok drs /\ respects w_fit /\ p1_mech (px_1 p) = Timew /\
  px_twice w_exp w_tau w_tau w_pw Mmax w_fit p None 1 drs false init 2 drs false init = Some (a, b) /\
  px_evolute w_exp w_tau w_tau w_pw Mmax w_fit p None 2 false drs init = Some c /\ (px_y b < px_y c)%Q /\ ~ never_worse Mmax (px_hist b).
Proof. exact px_second_loses. Qed.
Print Assumptions C85_second_refuted.
