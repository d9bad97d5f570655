(** C60: the process-based vectorised environment behaves, under every schedule, like the sequential one. *)
From Coq Require Import List Arith Bool.
From Verif Require Import Base Opt_Model Vec_Model Vec_Spec Vec_Proofs Vec_Demo.
Import ListNotations.
Open Scope nat_scope.

Section C60.
Context {St Act Obs Rew Info Req Val : Type}.
Context (env_step : St -> Act -> St * (Obs * Rew * bool * Info)) (env_reset : St -> St * Obs) (env_call : St -> Req -> St * Val).
Context (cast_obs : Obs -> Obs) (cast_rew : Rew -> Rew).
Notation moves := (moves env_step env_reset env_call).
Notation move := (move env_step env_reset env_call).
Notation dummy_run := (dummy_run env_step env_reset env_call cast_obs cast_rew).

(** Whenever the main process has finished its calls, it has received, in order, what DummyVecEnv
    returns (up to the conversion of DummyVecEnv's buffers). *)
Theorem C60_schedule : forall (ss : list St) (ops : list (@vop Act Req)) sched cf,
  Forall (op_ok (length ss)) ops -> moves (config_new ss (compile_all (length ss) ops)) sched = Some cf -> c_main cf = [] ->
  exists ss' mss, dummy_run ss ops = Some (ss', mss) /\ map (cast cast_obs cast_rew) (c_got cf) = concat mss.
Proof. exact (any_schedule env_step env_reset env_call cast_obs cast_rew). Qed.

(** It never deadlocks, *)
Theorem C60_progress : forall (ss : list St) (ops : list (@vop Act Req)) sched cf,
  Forall (op_ok (length ss)) ops -> moves (config_new ss (compile_all (length ss) ops)) sched = Some cf ->
  c_main cf = [] \/ exists ch cf', move cf ch = Some cf'.
Proof. exact (no_deadlock env_step env_reset env_call). Qed.

(** and the number of moves is bounded, so every schedule that does not idle finishes. *)
Theorem C60_bound : forall (ss : list St) (ops : list (@vop Act Req)) sched cf,
  moves (config_new ss (compile_all (length ss) ops)) sched = Some cf -> length sched <= work_bound (compile_all (length ss) ops).
Proof. exact (moves_bounded env_step env_reset env_call). Qed.

(** Every environment answers its commands as if it were alone, being reset in the step that ends its episode. *)
Theorem C60_alone : forall (ss : list St) (ops : list (@vop Act Req)), Forall (op_ok (length ss)) ops ->
  exists ss' mss ms, dummy_run ss ops = Some (ss', mss) /\ concat mss = map (cast cast_obs cast_rew) ms /\
    length ms = length (all_pairs (length ss) ops) /\
    forall i s, nth_error ss i = Some s ->
      lives env_step env_reset env_call s (commands i (all_pairs (length ss) ops)) (answered i (all_pairs (length ss) ops) ms).
Proof. exact (dummy_alone env_step env_reset env_call cast_obs cast_rew). Qed.
End C60.
Print Assumptions C60_schedule.
Print Assumptions C60_progress.
Print Assumptions C60_bound.
Print Assumptions C60_alone.

(** Too few actions: an exception with DummyVecEnv, a deadlock with SubprocVecEnv. *)
Theorem C60_short_refuted : exists sched cf, moves ve_step ve_reset ve_call (config_new [7; 8] (compile_all 2 [OStep [1]])) sched = Some cf /\ c_main cf <> [] /\
  (forall ch, move ve_step ve_reset ve_call cf ch = None) /\ dummy_run ve_step ve_reset ve_call (fun o => o) (fun r => r) [7; 8] [OStep [1]] = None.
Proof. exact ve_short. Qed.
Print Assumptions C60_short_refuted.

(** Between step_async and step_wait another call receives the answer of the step, and step_wait its. *)
Theorem C60_mixed_refuted : exists sched cf,
  moves ve_step ve_reset ve_call (config_new [1] (compile_async 1 [1] ++ compile 1 (OCall 0 [0]) ++ compile_wait 1)) sched = Some cf /\
  c_main cf = [] /\ c_got cf = [MStep 2 1 false tt None; MVal 2].
Proof. exact ve_mixed. Qed.
Print Assumptions C60_mixed_refuted.
