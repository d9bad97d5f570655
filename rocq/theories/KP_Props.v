(** C45: the knapsack environment. *)
From Coq Require Import List Arith ZArith QArith Qminmax Bool.
From Verif Require Import Base KP_Model KP_Spec KP_Proofs KP_Demo.
Import ListNotations.
Open Scope nat_scope.

(** The constructor succeeds exactly when no value is 0. *)
Theorem C45_new : forall c, (exists st, kp_new c = Some st) <-> Forall (fun p => ~ (fst p == 0)%Q) (kc_objs c).
Proof. exact kp_new_iff. Qed.
Print Assumptions C45_new.

(** Methods whose action is a list, after any history of steps and resets: the step returns the
    longest prefix of the chosen objects that fits, distinct objects, with their total value as
    reward; done comes every [kc_len] steps; the best value is kept.  If all objects but the last
    chosen one fit, the step raises instead. *)
Theorem C45_list : forall (rnd : nat -> nat) (c : kconf), wf_kp c ->
  forall ops st0 st acts, kp_new c = Some st0 -> Forall (list_op c) ops -> ofold (kp_op rnd c) st0 ops = Some st -> length acts = length (kc_objs c) ->
  (exists r st' x, kp_step_list rnd c st acts = Some (r, st') /\
     chosen (objects c) acts (kr_x r ++ [x]) /\ bag c (kr_x r ++ [x]) /\ (load c (kr_x r) <= kc_cap c)%Q /\ (kc_cap c < load c (kr_x r ++ [x]))%Q /\
     kr_reward r = worth c (kr_x r) /\ (kr_done r = true <-> S (length (filter is_kstep ops)) mod kc_len c = 0) /\ (k_best st' == Qmax (k_best st) (kr_reward r))%Q) \/
  (kp_step_list rnd c st acts = None /\ exists l, chosen (objects c) acts l /\ bag c l /\ length l = length (kc_objs c) /\ (load c (removelast l) <= kc_cap c)%Q).
Proof. exact kp_list. Qed.
Print Assumptions C45_list.

(** Methods that add one object per step, reset only between bags: the bag never exceeds the
    capacity nor repeats an object; a partial bag earns 0, a finished one its value. *)
Theorem C45_one : forall (rnd : nat -> nat) (c : kconf), wf_kp c -> forall st a, orderly rnd c st ->
  (kp_step_one rnd c st a = None /\ S (length (k_list st)) = length (kc_objs c)) \/
  exists r st' x, kp_step_one rnd c st a = Some (r, st') /\ bag c (k_list st ++ [x]) /\ bag c (kr_x r) /\ (load c (kr_x r) <= kc_cap c)%Q /\
    ((kc_cap c < load c (k_list st ++ [x]))%Q /\ kr_x r = k_list st /\ kr_reward r = worth c (kr_x r) /\ k_list st' = [] /\ (k_best st' == Qmax (k_best st) (kr_reward r))%Q \/
     (load c (k_list st ++ [x]) <= kc_cap c)%Q /\ kr_x r = k_list st ++ [x] /\ kr_reward r = 0%Q /\ k_list st' = kr_x r /\ k_best st' = k_best st).
Proof. exact kp_one. Qed.
Print Assumptions C45_one.

(** When all the objects fit together, every step of the list methods raises. *)
Theorem C45_all_fit_raises : forall (rnd : nat -> nat) (c : kconf), wf_kp c -> Forall (fun p => (0 <= snd p)%Q) (kc_objs c) -> (load c (objects c) <= kc_cap c)%Q ->
  forall ops st0 st acts, kp_new c = Some st0 -> Forall (list_op c) ops -> ofold (kp_op rnd c) st0 ops = Some st ->
  length acts = length (kc_objs c) -> kp_step_list rnd c st acts = None.
Proof. exact kp_all_fit. Qed.
Print Assumptions C45_all_fit_raises.

(** There are such environments. *)
Theorem C45_all_fit_refuted : exists c st0, wf_kp c /\ Forall (fun p => (0 < snd p)%Q) (kc_objs c) /\ (load c (objects c) <= kc_cap c)%Q /\ kp_new c = Some st0 /\
  forall rnd acts, length acts = length (kc_objs c) -> kp_step_list rnd c st0 acts = None.
Proof. exact kd_big_raises. Qed.
Print Assumptions C45_all_fit_refuted.

(** The observation of the list methods never shows the bag: it is the empty one. *)
Theorem C45_observation : forall (rnd : nat -> nat) (c : kconf), wf_kp c ->
  forall ops st0 st acts r st', kp_new c = Some st0 -> Forall (list_op c) ops -> ofold (kp_op rnd c) st0 ops = Some st ->
  length acts = length (kc_objs c) -> kp_step_list rnd c st acts = Some (r, st') -> k_state st' = repeat (sent, sent) (length (kc_objs c)).
Proof. exact kp_observation. Qed.
Print Assumptions C45_observation.

(** A reset in the middle of a bag breaks the one-object methods: repeated objects, capacity exceeded. *)
Theorem C45_reset_refuted : exists rnd c st0 r1 st1 r2 st2, wf_kp c /\ kp_new c = Some st0 /\ kp_step_one rnd c st0 0 = Some (r1, st1) /\
  kp_step_one rnd c (kp_reset c st1) 0 = Some (r2, st2) /\ ~ NoDup (kr_x r2) /\ (kc_cap c < load c (kr_x r2))%Q.
Proof. exact kd_reset. Qed.
Print Assumptions C45_reset_refuted.
