(** C46: the travelling salesman environment. *)
From Coq Require Import List Arith ZArith QArith Bool Permutation.
From Verif Require Import Base KP_Model KP_Spec TSP_Model TSP_Spec TSP_Proofs TSP_Demo.
Import ListNotations.
Open Scope nat_scope.

(** Methods whose action is a list, after any history of steps and resets: the step succeeds; the
    cities are visited in a tour that contains every city once, built from the chosen order (in
    info['x']) by putting each city at the first of the cheapest positions; the reward is minus the
    length of that closed tour; done comes every [tc_len] steps; the best reward is kept; the
    observation is the empty tour. *)
Theorem C46_list : forall (rdist : Q * Q -> Q * Q -> Z) (rnd : nat -> nat) (c : tconf), wf_tsp rdist c ->
  forall ops st acts, Forall (tlist_op c) ops -> ofold (tsp_op rdist rnd c) (tsp_new c) ops = Some st -> length acts = length (tc_cities c) ->
  exists r st' t, tsp_step_list rdist rnd c st acts = Some (r, st') /\ chosen (cities c) acts (tr_x r) /\ Permutation (tr_x r) (cities c) /\ Permutation t (cities c) /\
    built rdist c (tr_x r) t /\ tr_reward r = (- tour_len rdist c t)%Z /\ (tr_done r = true <-> S (length (filter is_tstep ops)) mod tc_len c = 0) /\
    t_best st' = Z.max (t_best st) (tr_reward r) /\ t_state st' = repeat (sent, sent) (length (tc_cities c)).
Proof. exact tsp_list. Qed.
Print Assumptions C46_list.

(** Methods that add one city per step, reset only between tours: never an error, never a repeated
    city; an unfinished tour earns 1000 times its length and is shown, a finished one contains every
    city once and earns minus its length. *)
Theorem C46_one : forall (rdist : Q * Q -> Q * Q -> Z) (rnd : nat -> nat) (c : tconf), wf_tsp rdist c -> forall st a, torderly rdist c rnd st ->
  exists r st' x t, tsp_step_one rdist rnd c st a = Some (r, st') /\ tr_x r = t_list st ++ [x] /\ NoDup (tr_x r) /\ incl (tr_x r) (cities c) /\ built rdist c (tr_x r) t /\
    (length (tr_x r) < length (tc_cities c) /\ tr_reward r = (1000 * tour_len rdist c t)%Z /\ t_list st' = tr_x r /\
       t_state st' = map (city c) t ++ repeat (sent, sent) (length (tc_cities c) - length t) /\ t_best st' = t_best st \/
     Permutation (tr_x r) (cities c) /\ Permutation t (cities c) /\ tr_reward r = (- tour_len rdist c t)%Z /\ t_list st' = [] /\ t_best st' = Z.max (t_best st) (tr_reward r)).
Proof. exact tsp_one. Qed.
Print Assumptions C46_one.

(** The reward is not minus the length of the tour in the order of info['x']. *)
Theorem C46_order_refuted : exists rdist rnd c acts r st, wf_tsp rdist c /\ (forall p q, rdist p q = rdist q p) /\
  tsp_step_list rdist rnd c (tsp_new c) acts = Some (r, st) /\ tr_reward r <> (- tour_len rdist c (tr_x r))%Z.
Proof. exact td_order. Qed.
Print Assumptions C46_order_refuted.

(** A reset in the middle of a tour leads to repeated cities. *)
Theorem C46_reset_refuted : exists rdist rnd c r1 st1 r2 st2, wf_tsp rdist c /\ tsp_step_one rdist rnd c (tsp_new c) 0 = Some (r1, st1) /\
  tsp_step_one rdist rnd c (tsp_reset c st1) 0 = Some (r2, st2) /\ ~ NoDup (tr_x r2).
Proof. exact td_reset. Qed.
Print Assumptions C46_reset_refuted.

(** Cities very far apart make step raise. *)
Theorem C46_far_refuted : exists rdist c, 2 <= length (tc_cities c) /\ Forall (fun p => ~ (fst p == sent)%Q) (tc_cities c) /\ 1 <= tc_len c /\
  forall rnd, tsp_step_list rdist rnd c (tsp_new c) [0; 0] = None.
Proof. exact td_far. Qed.
Print Assumptions C46_far_refuted.

(** With a single city every step raises. *)
Theorem C46_single_raises : forall rdist rnd c, length (tc_cities c) = 1 -> forall st a, tsp_step_list rdist rnd c st [a] = None /\ tsp_step_one rdist rnd c st a = None.
Proof. exact td_single. Qed.
Print Assumptions C46_single_raises.
