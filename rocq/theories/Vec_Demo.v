(** Concrete vectorised environments. *)
From Coq Require Import List Arith Lia Bool.
From Verif Require Import Base Opt_Model Vec_Model Vec_Spec Vec_Proofs.
Import ListNotations.
Open Scope nat_scope.

(** A counter whose episode ends at 3 or more; the observation is the counter. *)
Definition ve_step (s a : nat) : nat * (nat * nat * bool * unit) := (s + a, (s + a, a, 3 <=? s + a, tt)).
Definition ve_reset (s : nat) : nat * nat := (0, 0).
Definition ve_call (s q : nat) : nat * nat := (s, s + 100 * q).
Definition ve_ops : list (@vop nat nat) := [OReset; OStep [1; 2]; OStep [2; 2]; OCall 1 [1; 0; 1]].
Example ve_ok : Forall (op_ok 2) ve_ops.
Proof. unfold ve_ops. repeat constructor. Qed.
Definition ve_answers : list (@msg nat nat unit nat) :=
  [MObs 0; MObs 0; MStep 1 1 false tt None; MStep 2 2 false tt None; MStep 0 2 true tt (Some 3); MStep 0 2 true tt (Some 4); MVal 100; MVal 100; MVal 100].
Example ve_dummy : (let* r := dummy_run ve_step ve_reset ve_call (fun o => o) (fun r => r) [7; 8] ve_ops in Some (concat (snd r))) = Some ve_answers.
Proof. reflexivity. Qed.
(** Two very different schedules, the same answers. *)
Definition ve_sched1 : list choice :=
  [Main; Work 0; Main; Work 1; Main; Main; Main; Work 0; Main; Work 1; Main; Main; Main; Main; Work 1; Work 0; Main; Main; Main; Main; Main; Work 0; Work 1; Work 1; Main; Main; Main].
Definition ve_sched2 : list choice :=
  [Main; Main; Work 1; Work 0; Main; Main; Main; Main; Work 1; Work 0; Main; Main; Main; Work 0; Main; Work 1; Main; Main; Main; Work 1; Main; Work 0; Main; Work 1; Main; Main; Main].
Example ve_run1 : (let* cf := moves ve_step ve_reset ve_call (config_new [7; 8] (compile_all 2 ve_ops)) ve_sched1 in Some (c_main cf, c_got cf)) = Some ([], ve_answers).
Proof. reflexivity. Qed.
Example ve_run2 : (let* cf := moves ve_step ve_reset ve_call (config_new [7; 8] (compile_all 2 ve_ops)) ve_sched2 in Some (c_main cf, c_got cf)) = Some ([], ve_answers).
Proof. reflexivity. Qed.

(** One action for two environments: DummyVecEnv raises, SubprocVecEnv waits for ever. *)
Lemma ve_short : exists sched cf, moves ve_step ve_reset ve_call (config_new [7; 8] (compile_all 2 [OStep [1]])) sched = Some cf /\ c_main cf <> [] /\
  (forall ch, move ve_step ve_reset ve_call cf ch = None) /\ dummy_run ve_step ve_reset ve_call (fun o => o) (fun r => r) [7; 8] [OStep [1]] = None.
Proof.
  exists [Main; Work 0; Main]. eexists. split; [reflexivity|]. split; [discriminate|]. split; [|reflexivity]. intros [|[|[|i]]]; try reflexivity. cbn. destruct i; reflexivity.
Qed.
(** A call between step_async and step_wait gets the answer of the step. *)
Lemma ve_mixed : exists sched cf, moves ve_step ve_reset ve_call (config_new [1] (compile_async 1 [1] ++ compile 1 (OCall 0 [0]) ++ compile_wait 1)) sched = Some cf /\
  c_main cf = [] /\ c_got cf = [MStep 2 1 false tt None; MVal 2].
Proof. exists [Main; Main; Work 0; Work 0; Main; Main]. eexists. split; [reflexivity|]. split; reflexivity. Qed.
