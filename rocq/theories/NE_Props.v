(** Theorems about FNEAT and RNEAT (property C79). *)
From Coq Require Import String List Arith ZArith QArith Bool.
From Verif Require Import Base Space_Model Space_Spec Opt_Model Opt_Spec Env_Model Env_Spec NE_Model NE_Spec NE_Proofs NE_More NE_Final NE_Demo.
Import ListNotations.
Open Scope nat_scope.

(** C79: a run on one core.  The genomes are those the library gives for the fitnesses of the earlier
    generations.  Their episodes follow each other in the same environment, each until it says done.  The
    individual and value returned are the best of everything evaluated.  The history has one entry per
    genome: the best so far and the best of its episode.  The fitness handed to NEAT is the reward of the
    last individual of the episode. *)
Theorem C79_serial : forall (G N : Type) (net_new : G -> N) activate lib fit act_sample obs_sample randint c sp x0 fuel ngen st x y gl lo fits st' log,
  n_counter st < ec_len c ->
  neat_evolute net_new activate lib fit act_sample obs_sample randint c sp x0 false fuel ngen st = Some (x, y, gl, lo, fits, st', log) ->
  exists gens eps, given lib [] gens fits /\ List.length gens <= ngen /\ episodes net_new activate fit act_sample obs_sample randint c sp x0 (concat gens) st eps st' /\
    n_counter st' < ec_len c /\ log = concat (map (map r_x) eps) /\
    best_of (ec_mode c) fit log x y /\ hist_ok (ec_mode c) fit all_of eps gl lo /\ Forall2 last_reward (concat fits) eps.
Proof. exact (fun G N => @serial_run G N). Qed.
Print Assumptions C79_serial.

(** C79: a run on several cores.  Every genome plays in its own copy of the environment.  The individual and
    value returned are the best among the last individuals of the episodes, and so is every entry of
    global_fitness; local_fitness is the best of the whole episode. *)
Theorem C79_parallel : forall (G N : Type) (net_new : G -> N) activate lib fit act_sample obs_sample randint c sp x0 fuel ngen st x y gl lo fits st' log,
  neat_evolute net_new activate lib fit act_sample obs_sample randint c sp x0 true fuel ngen st = Some (x, y, gl, lo, fits, st', log) ->
  exists gens eps, given lib [] gens fits /\ List.length gens <= ngen /\ copies net_new activate fit act_sample obs_sample randint c sp x0 (concat gens) st eps /\ st' = st /\
    log = concat (map (map r_x) eps) /\
    best_of (ec_mode c) fit (map r_x (concat (map last_of eps))) x y /\ hist_ok (ec_mode c) fit last_of eps gl lo /\ Forall2 last_reward (concat fits) eps.
Proof. exact (fun G N => @parallel_run G N). Qed.
Print Assumptions C79_parallel.

(** C79: on several cores FNEAT and RNEAT need not return the best individual they evaluated, and
    local_fitness can be better than global_fitness, which suggests a best so far. *)
Theorem C79_parallel_refuted : ~ (forall (G N : Type) (net_new : G -> N) activate lib fit set_order act_sample obs_sample randint c sp x0 fuel ngen st x y gl lo fits st' log,
  wf_space (ec_space c) -> 1 <= ec_len c -> env_new set_order act_sample obs_sample c = Some (sp, st) ->
  neat_evolute net_new activate lib fit act_sample obs_sample randint c sp x0 true fuel ngen st = Some (x, y, gl, lo, fits, st', log) ->
  (forall z, In z log -> as_good (ec_mode c) y (fit z)) \/ Forall2 (as_good (ec_mode c)) gl lo).
Proof. exact parallel_refuted. Qed.
Print Assumptions C79_parallel_refuted.

(** C79: without x0 a new object evaluates episode_length individuals per genome. *)
Theorem C79_count : forall (G N : Type) (net_new : G -> N) activate fit set_order act_sample obs_sample randint c sp lib fuel ngen st x y gl lo fits st' log,
  1 <= ec_len c -> env_new set_order act_sample obs_sample c = Some (sp, st) ->
  neat_evolute net_new activate lib fit act_sample obs_sample randint c sp None false fuel ngen st = Some (x, y, gl, lo, fits, st', log) ->
  List.length log = ec_len c * List.length (concat fits).
Proof. exact (fun G N => @count_reset G N). Qed.
Print Assumptions C79_count.

(** C79: so it does on several cores, with or without x0, in every call (the environment is unchanged). *)
Theorem C79_count_parallel : forall (G N : Type) (net_new : G -> N) activate fit set_order act_sample obs_sample randint c sp lib x0 fuel ngen st x y gl lo fits st' log,
  1 <= ec_len c -> env_new set_order act_sample obs_sample c = Some (sp, st) ->
  neat_evolute net_new activate lib fit act_sample obs_sample randint c sp x0 true fuel ngen st = Some (x, y, gl, lo, fits, st', log) ->
  List.length log = ec_len c * List.length (concat fits) /\ st' = st.
Proof. exact (fun G N => @count_parallel G N). Qed.
Print Assumptions C79_count_parallel.

(** C79: with x0 on one core the environment is never reset: the first genome gets episode_length
    individuals, every later genome exactly one. *)
Theorem C79_count_x0 : forall (G N : Type) (net_new : G -> N) activate fit set_order act_sample obs_sample randint c sp lib x0 fuel ngen st x y gl lo fits st' log,
  1 <= ec_len c -> env_new set_order act_sample obs_sample c = Some (sp, st) ->
  neat_evolute net_new activate lib fit act_sample obs_sample randint c sp (Some x0) false fuel ngen st = Some (x, y, gl, lo, fits, st', log) ->
  List.length log + 1 = ec_len c + List.length (concat fits).
Proof. exact (fun G N => @count_x0 G N). Qed.
Print Assumptions C79_count_x0.

(** C79: and in a second call of evolute with x0 every genome gets exactly one. *)
Theorem C79_count_again : forall (G N : Type) (net_new : G -> N) activate fit set_order act_sample obs_sample randint c sp lib x0 fuel ngen st x y gl lo fits st' log
    lib2 fuel2 ngen2 x2 y2 gl2 lo2 fits2 st2 log2,
  1 <= ec_len c -> env_new set_order act_sample obs_sample c = Some (sp, st) ->
  neat_evolute net_new activate lib fit act_sample obs_sample randint c sp (Some x0) false fuel ngen st = Some (x, y, gl, lo, fits, st', log) ->
  neat_evolute net_new activate lib2 fit act_sample obs_sample randint c sp (Some x0) false fuel2 ngen2 st' = Some (x2, y2, gl2, lo2, fits2, st2, log2) ->
  List.length log2 = List.length (concat fits2).
Proof. exact (fun G N => @count_again G N). Qed.
Print Assumptions C79_count_again.

(** C79: with x0 on one core not every genome is evaluated for episode_length individuals. *)
Theorem C79_x0_refuted : ~ (forall (G N : Type) (net_new : G -> N) activate lib fit set_order act_sample obs_sample randint c sp x0 fuel ngen st x y gl lo fits st' log,
  wf_space (ec_space c) -> 1 <= ec_len c -> env_new set_order act_sample obs_sample c = Some (sp, st) ->
  neat_evolute net_new activate lib fit act_sample obs_sample randint c sp (Some x0) false fuel ngen st = Some (x, y, gl, lo, fits, st', log) ->
  List.length log = ec_len c * List.length (concat fits)).
Proof. exact x0_refuted. Qed.
Print Assumptions C79_x0_refuted.

(** C79: every individual evaluated, and the one returned, is a point of the space. *)
Theorem C79_valid : forall (G N : Type) (net_new : G -> N) activate lib fit act_sample obs_sample randint c sp x0 parallel fuel ngen st x y gl lo fits st' log,
  wf_space (ec_space c) -> ec_meth c = MAll -> n_counter st < ec_len c ->
  neat_evolute net_new activate lib fit act_sample obs_sample randint c sp x0 parallel fuel ngen st = Some (x, y, gl, lo, fits, st', log) ->
  Forall (valid (ec_space c)) log /\ valid (ec_space c) x.
Proof. exact (fun G N => @run_valid G N). Qed.
Print Assumptions C79_valid.

(** C79: in a space with a float variable a run with at least one genome never raises and every episode
    ends within episode_length steps. *)
Theorem C79_total : forall (G N : Type) (net_new : G -> N) activate lib fit set_order act_sample obs_sample randint c x0,
  wf_space (ec_space c) -> env_aspace set_order c = Some ABox ->
  (forall n ob, List.length (snd (activate n ob)) = List.length (ec_space c)) ->
  forall parallel fuel ngen st gs, ec_len c <= fuel -> n_counter st < ec_len c -> 1 <= ngen -> lib [] = Some gs -> gs <> [] ->
  (forall x, x0 = Some x -> List.length x = List.length (ec_space c)) ->
  neat_evolute net_new activate lib fit act_sample obs_sample randint c ABox x0 parallel fuel ngen st <> None.
Proof. exact (fun G N => @run_total G N). Qed.
Print Assumptions C79_total.

(** C79: in a space of integers and grids only, evolute raises KeyError unless the outputs of the networks
    are exactly integers. *)
Theorem C79_discrete_raises : forall (G N : Type) (net_new : G -> N) activate lib fit act_sample obs_sample randint c maps x0 parallel fuel ngen st g gs,
  1 <= ngen -> lib [] = Some (g :: gs) ->
  (forall ob, exists q, In q (snd (activate (net_new g) ob)) /\ ~ is_int q) ->
  neat_evolute net_new activate lib fit act_sample obs_sample randint c (AMulti maps) x0 parallel fuel ngen st = None.
Proof. exact (fun G N => @discrete_stop G N). Qed.
Print Assumptions C79_discrete_raises.

(** C79: concrete runs meet the hypotheses. *)
Example C79_runs : env_new (fun l => l) e_act e_obs e_conf = Some (ABox, e_start) /\ wf_space (ec_space e_conf) /\ (forall n ob, List.length (snd (e_net n ob)) = List.length (ec_space e_conf)) /\
  (exists x y gl lo fits st' log, neat_evolute e_new e_net e_lib e_fit e_act e_obs e_int e_conf ABox None false 5 2 e_start = Some (x, y, gl, lo, fits, st', log) /\
    (y == 10)%Q /\ List.length (concat fits) = 4 /\ List.length log = 8 /\ List.length lo = 4) /\
  (exists x y gl lo fits st' log, neat_evolute e_new e_net e_lib e_fit e_act e_obs e_int e_conf ABox (Some [0%Q]) false 5 2 e_start = Some (x, y, gl, lo, fits, st', log) /\
    List.length (concat fits) = 4 /\ List.length log = 5 /\ n_done st' = true).
Proof. exact (conj demo_new (conj demo_wf (conj demo_out (conj demo_serial demo_x0)))). Qed.
Example C79_integers : (exists maps st, env_new (fun l => l) (fun _ => ActMulti [3]) e_obs i_conf = Some (AMulti maps, st)) /\
  forall g ob, exists q, In q (snd (i_net g ob)) /\ ~ is_int q.
Proof. exact (conj demo_multi demo_half). Qed.
