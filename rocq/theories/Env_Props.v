(** C42 and C43: the optimization environment. *)
From Coq Require Import String List Arith ZArith QArith Bool.
From Verif Require Import Base Space_Model Space_Spec Opt_Model Env_Model Env_Spec Env_Proofs Env_Disc Env_Episode Env_Demo.
Import ListNotations.
Open Scope nat_scope.

(** The constructor accepts exactly these combinations of method and space. *)
Theorem C42_accepts : forall set_order act_sample obs_sample c, wf_space (ec_space c) ->
  ((exists sp st, env_new set_order act_sample obs_sample c = Some (sp, st)) <->
   ec_meth c = MAll \/ ec_meth c = MOne /\ Forall (fun kp => integral (snd kp) = true) (ec_space c)).
Proof. exact new_ok. Qed.
Print Assumptions C42_accepts.

(** Continuous actions: any vector (also outside the action space) gives a valid individual, scaled
    affinely, and its fitness. *)
Theorem C42_box : forall fit set_order act_sample obs_sample randint c sp0 st0,
  wf_space (ec_space c) -> env_new set_order act_sample obs_sample c = Some (sp0, st0) -> sp0 = ABox ->
  forall st a, length a = length (ec_space c) ->
  exists r st', env_step fit obs_sample randint c ABox st (ActBox a) = Some (r, st') /\
    valid (ec_space c) (r_x r) /\ observable (ec_space c) (r_state r) /\ represents (ec_space c) (r_state r) (r_x r) /\
    r_reward r = as_max (ec_mode c) (fit (r_x r)) /\
    (forall i kp y q, nth_error (ec_space c) i = Some kp -> nth_error a i = Some y -> nth_error (r_state r) i = Some q -> scaled (snd kp) y q).
Proof. exact box_ok. Qed.
Print Assumptions C42_box.

(** Every individual of the space is reached by an action of the action space. *)
Theorem C42_box_onto : forall fit set_order act_sample obs_sample randint c sp0 st0,
  wf_space (ec_space c) -> env_new set_order act_sample obs_sample c = Some (sp0, st0) -> sp0 = ABox ->
  forall x, valid (ec_space c) x -> exists a, length a = length (ec_space c) /\ Forall (fun y => (-1 <= y)%Q /\ (y <= 1)%Q) a /\
    forall st, exists r st', env_step fit obs_sample randint c ABox st (ActBox a) = Some (r, st') /\ Forall2 same (r_x r) x.
Proof. exact box_onto. Qed.
Print Assumptions C42_box_onto.

(** ... but the largest value of an integer variable only by the action 1 exactly. *)
Theorem C42_upper_edge : forall fit set_order act_sample obs_sample randint c sp0 st0,
  wf_space (ec_space c) -> env_new set_order act_sample obs_sample c = Some (sp0, st0) -> sp0 = ABox ->
  forall st a r st' i kp y q, length a = length (ec_space c) -> env_step fit obs_sample randint c ABox st (ActBox a) = Some (r, st') ->
    nth_error (ec_space c) i = Some kp -> nth_error a i = Some y -> nth_error (r_state r) i = Some q ->
    integral (snd kp) = true -> (0 <= low (snd kp))%Q -> (low (snd kp) < high (snd kp))%Q -> (-1 <= y)%Q -> (y < 1)%Q -> (q < high (snd kp))%Q.
Proof. exact upper_edge. Qed.
Print Assumptions C42_upper_edge.

(** Vectors of indices: index [n] of a variable is its lower bound plus [n]. *)
Theorem C42_multidiscrete : forall fit set_order act_sample obs_sample randint c maps st0,
  wf_space (ec_space c) -> env_new set_order act_sample obs_sample c = Some (AMulti maps, st0) ->
  Forall2 (fun kp m => (inject_Z (Z.of_nat (length m)) == high (snd kp) - low (snd kp) + 1)%Q) (ec_space c) maps /\
  forall st ix, Forall2 (fun m i => i < length m) maps ix ->
  exists r st', env_step fit obs_sample randint c (AMulti maps) st (ActMulti ix) = Some (r, st') /\
    valid (ec_space c) (r_x r) /\ observable (ec_space c) (r_state r) /\ represents (ec_space c) (r_state r) (r_x r) /\
    r_reward r = as_max (ec_mode c) (fit (r_x r)) /\
    (forall i kp n q, nth_error (ec_space c) i = Some kp -> nth_error ix i = Some n -> nth_error (r_state r) i = Some q ->
       (q == low (snd kp) + inject_Z (Z.of_nat n))%Q).
Proof. exact multi_ok. Qed.
Print Assumptions C42_multidiscrete.

Theorem C42_multidiscrete_onto : forall fit set_order act_sample obs_sample randint c maps st0,
  wf_space (ec_space c) -> env_new set_order act_sample obs_sample c = Some (AMulti maps, st0) ->
  forall x, valid (ec_space c) x -> exists ix, Forall2 (fun m i => i < length m) maps ix /\
    forall st, exists r st', env_step fit obs_sample randint c (AMulti maps) st (ActMulti ix) = Some (r, st') /\ Forall2 same (r_x r) x.
Proof. exact multi_onto. Qed.
Print Assumptions C42_multidiscrete_onto.

(** Single actions (dqn, acer): the actions are the values of all variables without repetition; after
    any history a step gives a valid individual and its fitness, and changes only the coordinate whose
    turn it is (to the value named if the variable has it) or, after the last, draws a fresh individual. *)
Theorem C42_single : forall fit set_order act_sample obs_sample randint c vals st0,
  set_listing set_order -> wf_space (ec_space c) -> obs_ok (ec_space c) obs_sample -> randint_ok randint ->
  env_new set_order act_sample obs_sample c = Some (ADiscrete vals, st0) ->
  NoDup vals /\ (forall z, In z vals <-> exists kp, In kp (ec_space c) /\ (low (snd kp) <= inject_Z z)%Q /\ (inject_Z z <= high (snd kp))%Q) /\
  forall ops, Forall (fun o => match o with OStep a => legal (ADiscrete vals) a | OReset => True end) ops ->
  exists st, ofold (env_op fit act_sample obs_sample randint c (ADiscrete vals)) st0 ops = Some st /\
  forall i z, nth_error vals i = Some z ->
  exists r st', env_step fit obs_sample randint c (ADiscrete vals) st (ActOne i) = Some (r, st') /\
    valid (ec_space c) (r_x r) /\ observable (ec_space c) (r_state r) /\ represents (ec_space c) (r_state r) (r_x r) /\
    r_reward r = as_max (ec_mode c) (fit (r_x r)) /\
    (let k := steps ops mod S (length (ec_space c)) in
     (k = length (ec_space c) -> exists t, r_state r = obs_sample t) /\
     (forall kp, nth_error (ec_space c) k = Some kp ->
       (forall j, j <> k -> nth_error (r_state r) j = nth_error (n_full st) j) /\
       exists q, nth_error (r_state r) k = Some q /\ (in_range (snd kp) (inject_Z z) -> (q == inject_Z z)%Q))).
Proof. exact seq_ok. Qed.
Print Assumptions C42_single.

(** From the start of an individual, one action per variable builds any individual. *)
Theorem C42_single_individual : forall fit set_order act_sample obs_sample randint c vals st0,
  set_listing set_order -> wf_space (ec_space c) -> obs_ok (ec_space c) obs_sample -> randint_ok randint ->
  env_new set_order act_sample obs_sample c = Some (ADiscrete vals, st0) ->
  forall ops ixs zs, Forall (fun o => match o with OStep a => legal (ADiscrete vals) a | OReset => True end) ops ->
  steps ops mod S (length (ec_space c)) = 0 ->
  Forall2 (fun i z => nth_error vals i = Some z) ixs zs -> Forall2 (fun kp z => in_range (snd kp) (inject_Z z)) (ec_space c) zs ->
  exists st, ofold (env_op fit act_sample obs_sample randint c (ADiscrete vals)) st0 (ops ++ map (fun i => OStep (ActOne i)) ixs) = Some st /\
    Forall2 Qeq (n_full st) (map inject_Z zs).
Proof. exact seq_individual. Qed.
Print Assumptions C42_single_individual.

(** Every action matters: false for single actions, one step in n+1 ignores its action. *)
Theorem C42_single_ignored_refuted : forall fit set_order act_sample obs_sample randint c vals st0,
  set_listing set_order -> wf_space (ec_space c) -> obs_ok (ec_space c) obs_sample -> randint_ok randint ->
  env_new set_order act_sample obs_sample c = Some (ADiscrete vals, st0) ->
  forall ops st, Forall (fun o => match o with OStep a => legal (ADiscrete vals) a | OReset => True end) ops ->
  ofold (env_op fit act_sample obs_sample randint c (ADiscrete vals)) st0 ops = Some st ->
  steps ops mod S (length (ec_space c)) = length (ec_space c) ->
  forall i j, env_step fit obs_sample randint c (ADiscrete vals) st (ActOne i) = env_step fit obs_sample randint c (ADiscrete vals) st (ActOne j).
Proof. exact seq_ignored. Qed.
Print Assumptions C42_single_ignored_refuted.

(** The first action after a reset should set the first variable; the turn survives the reset. *)
Theorem C42_single_reset_refuted : exists c vals st0 st r st',
  wf_space (ec_space c) /\ env_new dm_set dm_act dm_obs c = Some (ADiscrete vals, st0) /\
  ofold (env_op dm_fit dm_act dm_obs dm_randint c (ADiscrete vals)) st0 [OStep (ActOne 3); OReset] = Some st /\
  nth_error vals 2 = Some 4%Z /\ (forall kp, nth_error (ec_space c) 0 = Some kp -> in_range (snd kp) (inject_Z 4)) /\
  env_step dm_fit dm_obs dm_randint c (ADiscrete vals) st (ActOne 2) = Some (r, st') /\ nth_error (r_state r) 0 = Some 2%Q.
Proof. exact dm_index. Qed.
Print Assumptions C42_single_reset_refuted.

(** reset should return an observation; it returns a sample of the action space. *)
Theorem C42_reset_refuted : exists c, wf_space (ec_space c) /\
  (forall set_order act_sample obs_sample, exists st0, env_new set_order act_sample obs_sample c = Some (ABox, st0) /\
     exists t st1, env_reset act_sample obs_sample c st0 = Some (ObsAction (act_sample t), st1)) /\
  (forall a, legal ABox (ActBox a) -> ~ observable (ec_space c) a).
Proof. exact dm_reset. Qed.
Print Assumptions C42_reset_refuted.

(** A step reports done exactly if it, or an earlier step since the last reset, was number L, 2L, 3L, ...
    of all steps of the environment. *)
Theorem C43_done : forall fit set_order act_sample obs_sample randint c sp st0,
  env_new set_order act_sample obs_sample c = Some (sp, st0) -> 1 <= ec_len c ->
  forall ops st a r st', ofold (env_op fit act_sample obs_sample randint c sp) st0 ops = Some st ->
  env_step fit obs_sample randint c sp st a = Some (r, st') ->
  (r_done r = true <->
   exists l1 a' l2, ops ++ [OStep a] = l1 ++ OStep a' :: l2 /\ Forall (fun o => is_step o = true) l2 /\ Nat.divide (ec_len c) (S (steps l1))).
Proof. exact done_spec. Qed.
Print Assumptions C43_done.

(** When the environment is reset exactly after done, every episode has the declared length. *)
Theorem C43_length : forall fit set_order act_sample obs_sample randint c sp st0,
  env_new set_order act_sample obs_sample c = Some (sp, st0) -> 1 <= ec_len c ->
  forall ops acts st a r st', complete (ec_len c) ops -> length acts < ec_len c ->
  ofold (env_op fit act_sample obs_sample randint c sp) st0 (ops ++ map OStep acts) = Some st ->
  env_step fit obs_sample randint c sp st a = Some (r, st') ->
  r_done r = (S (length acts) =? ec_len c).
Proof. exact episode_exact. Qed.
Print Assumptions C43_length.

(** An episode after an early reset should have the declared length too; it is shorter by the steps of
    the abandoned one. *)
Theorem C43_early_refuted : forall fit set_order act_sample obs_sample randint c sp st0,
  env_new set_order act_sample obs_sample c = Some (sp, st0) -> 1 <= ec_len c ->
  forall ops cut n acts st a r st', complete (ec_len c) ops -> 1 <= length cut < ec_len c -> 1 <= n -> length acts < ec_len c ->
  ofold (env_op fit act_sample obs_sample randint c sp) st0 (ops ++ map OStep cut ++ repeat OReset n ++ map OStep acts) = Some st ->
  env_step fit obs_sample randint c sp st a = Some (r, st') ->
  (r_done r = true <-> ec_len c - length cut <= S (length acts)).
Proof. exact episode_early. Qed.
Print Assumptions C43_early_refuted.

(** Declared length 0: never done. *)
Theorem C43_zero : forall fit set_order act_sample obs_sample randint c sp st0,
  env_new set_order act_sample obs_sample c = Some (sp, st0) -> ec_len c = 0 ->
  forall ops st a r st', ofold (env_op fit act_sample obs_sample randint c sp) st0 ops = Some st ->
  env_step fit obs_sample randint c sp st a = Some (r, st') -> r_done r = false.
Proof. exact never_done. Qed.
Print Assumptions C43_zero.
