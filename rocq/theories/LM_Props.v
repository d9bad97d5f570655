(** C129: recurrent policies. *)
From Coq Require Import Reals List Arith.
From Verif Require Import LM_Model LM_Spec LM_Proofs LM_Final LM_Demo.
Import ListNotations.
Open Scope R_scope.

(** C129: for every network with the shapes it is created with, every number of environments and steps: the hidden row of environment e in step
    t is that of the textbook cell, run over the observations of environment e alone from its row of the state, emptied where an episode
    starts; and the new state holds what the cell has after the last step. *)
Theorem C129_policy : forall {O} (features : O -> row) p n_env n_steps obs dones states out new e o b s,
  shaped p -> features_fit features p ->
  forward features p n_env n_steps obs dones states = Some (out, new) -> (e < n_env)%nat -> given n_steps e obs dones states o b s ->
  let X := fun t i => nth i (features (o t)) 0 in
  (forall t, (t < n_steps)%nat -> exists h, nth_error out (e * n_steps + t) = Some h /\ length h = n_hidden p /\
     forall j, (j < n_hidden p)%nat -> nth j h 0 = snd (recurrence p X b (memory_of p s) (S t)) j) /\
  exists s', nth_error new e = Some s' /\ length s' = (n_hidden p + n_hidden p)%nat /\
    forall j, (j < n_hidden p)%nat -> nth j s' 0 = fst (recurrence p X b (memory_of p s) n_steps) j /\
                                      nth (n_hidden p + j) s' 0 = snd (recurrence p X b (memory_of p s) n_steps) j.
Proof. exact @policy_ok. Qed.
Print Assumptions C129_policy.

(** C129: one row for each observation, and one row of the state for each environment. *)
Theorem C129_counts : forall {O} (features : O -> row) p n_env n_steps obs dones states out new,
  forward features p n_env n_steps obs dones states = Some (out, new) -> length out = (n_env * n_steps)%nat /\ length new = n_env.
Proof. exact @policy_counts. Qed.
Print Assumptions C129_counts.

(** C129: what the policy computes in an episode depends on the observations of that episode only: not on the state, not on earlier
    episodes, not on the other environments, and not on where in the rollout the episode starts. *)
Theorem C129_episode : forall {O} (features : O -> row) p n1 n2 T1 T2 obs1 obs2 dones1 dones2 states1 states2 out1 out2 new1 new2
  e1 e2 o1 o2 b1 b2 s1 s2 t1 t2 K,
  shaped p -> features_fit features p ->
  forward features p n1 T1 obs1 dones1 states1 = Some (out1, new1) -> forward features p n2 T2 obs2 dones2 states2 = Some (out2, new2) ->
  (e1 < n1)%nat -> given T1 e1 obs1 dones1 states1 o1 b1 s1 -> (e2 < n2)%nat -> given T2 e2 obs2 dones2 states2 o2 b2 s2 ->
  (t1 + K < T1)%nat -> (t2 + K < T2)%nat -> b1 t1 = true -> b2 t2 = true ->
  (forall k, (k <= K)%nat -> o1 (t1 + k)%nat = o2 (t2 + k)%nat /\ b1 (t1 + k)%nat = b2 (t2 + k)%nat) ->
  exists h, nth_error out1 (e1 * T1 + (t1 + K)) = Some h /\ nth_error out2 (e2 * T2 + (t2 + K)) = Some h.
Proof. exact @policy_episode. Qed.
Print Assumptions C129_episode.

(** C129: from the same row of the state, neither other environments nor later steps change what an environment gets: minibatches of
    environments give the rows of the whole batch. *)
Theorem C129_own : forall {O} (features : O -> row) p n1 n2 T1 T2 obs1 obs2 dones1 dones2 states1 states2 out1 out2 new1 new2
  e1 e2 o1 o2 b1 b2 s t,
  shaped p -> features_fit features p ->
  forward features p n1 T1 obs1 dones1 states1 = Some (out1, new1) -> forward features p n2 T2 obs2 dones2 states2 = Some (out2, new2) ->
  (e1 < n1)%nat -> given T1 e1 obs1 dones1 states1 o1 b1 s -> (e2 < n2)%nat -> given T2 e2 obs2 dones2 states2 o2 b2 s ->
  (t < T1)%nat -> (t < T2)%nat -> (forall k, (k <= t)%nat -> o1 k = o2 k /\ b1 k = b2 k) ->
  exists h, nth_error out1 (e1 * T1 + t) = Some h /\ nth_error out2 (e2 * T2 + t) = Some h.
Proof. exact @policy_own. Qed.
Print Assumptions C129_own.

(** C129: training sees what acting saw: the run over a rollout, with the environments one after the other, gives the rows that the calls step
    by step gave, each with the state returned by the one before it, and the same last state. *)
Theorem C129_training : forall {O} (features : O -> row) p n_env (d : O) obs dones states hss final,
  shaped p -> features_fit features p -> obs <> [] -> length states = n_env ->
  Forall (fun s => length s = (n_hidden p + n_hidden p)%nat) states ->
  acting features p n_env obs dones states = Some (hss, final) ->
  forward features p n_env (length obs) (seq_to_batch d n_env obs) (seq_to_batch false n_env dones) states =
    Some (seq_to_batch [] n_env hss, final).
Proof. exact @policy_train. Qed.
Print Assumptions C129_training.

(** C129: hidden numbers stay between -1 and 1, and a number of the cell state grows by at most 1 in a step. *)
Theorem C129_bounds : forall {O} (features : O -> row) p n_env n_steps obs dones states out new,
  shaped p -> features_fit features p -> forward features p n_env n_steps obs dones states = Some (out, new) ->
  (forall h x, In h out -> In x h -> Rabs x < 1) /\
  (forall e s s' j, nth_error states e = Some s -> nth_error new e = Some s' -> (j < n_hidden p)%nat ->
     Rabs (nth j s' 0) <= Rabs (nth j s 0) + INR n_steps).
Proof. exact @policy_bounds. Qed.
Print Assumptions C129_bounds.

(** C129: layer normalisation with gain 1 and bias 0 gives numbers with sum 0 whose squares sum to less than their number. *)
Theorem C129_norm : forall v, v <> [] -> let z := ln_row (repeat 1 (length v)) (repeat 0 (length v)) v in
  length z = length v /\ total z = 0 /\ total (map (fun x => x ^ 2) z) < INR (length v).
Proof. exact ln_standard. Qed.
Print Assumptions C129_norm.

(** C129: equal numbers become the bias. *)
Theorem C129_norm_constant : forall a w gain bias, length gain = w -> length bias = w -> ln_row gain bias (repeat a w) = bias.
Proof. exact ln_constant. Qed.
Print Assumptions C129_norm_constant.

(** C129: a call is accepted exactly if it has an observation and a flag for each step of each environment, and a row of the state for each
    environment: predict with another number of observations than the training had environments raises. *)
Theorem C129_accepts : forall {O} (features : O -> row) p n_env n_steps obs dones states,
  (exists r, forward features p n_env n_steps obs dones states = Some r) <->
  length obs = (n_env * n_steps)%nat /\ length dones = (n_env * n_steps)%nat /\ length states = n_env /\
  Forall (fun s => length s = (n_hidden p + n_hidden p)%nat) states.
Proof. exact @forward_some. Qed.
Print Assumptions C129_accepts.

(** C129: the initial state of a policy is zero and accepted with every number of steps. *)
Theorem C129_initial : forall {O} (features : O -> row) p n_env n_steps obs dones, length obs = (n_env * n_steps)%nat -> length dones = (n_env * n_steps)%nat ->
  (exists r, forward features p n_env n_steps obs dones (initial_state p n_env) = Some r) /\ Forall (Forall (fun x => x = 0)) (initial_state p n_env).
Proof. exact @initial_accepted. Qed.
Print Assumptions C129_initial.

(** C129: in a new episode without the flag, which predict leaves out by default, the answer depends on the episode before. *)
Theorem C129_mask_refuted : exists p (features : R -> row) obs s1 s2 out1 out2 new1 new2, shaped p /\ features_fit features p /\
  forward features p 1 1 obs [false] [s1] = Some (out1, new1) /\ forward features p 1 1 obs [false] [s2] = Some (out2, new2) /\ out1 <> out2.
Proof. exact mask_needed. Qed.
Print Assumptions C129_mask_refuted.
