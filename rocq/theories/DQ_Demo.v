(** Instances for the theorems about DQN.learn. *)
From Coq Require Import List Arith ZArith QArith Qround Bool Lia.
From Verif Require Import Base BaseFacts Opt_Model Sched_Model CB_Model CB_Spec Replay_Model LN_Spec DQ_Model DQ_Spec.
Import ListNotations.
Open Scope nat_scope.

(** An environment that counts its steps, with episodes of four steps. *)
Definition q_next (s _ : nat) : nat := S s.
Definition q_rew (s _ : nat) : Q := inject_Z (Z.of_nat s).
Definition q_obs (s : nat) : nat := 10 * s.
Definition q_done (s : nat) : bool := 4 <=? s.
Definition q_reset (_ : nat) : nat := 0.
Definition q_act (q : nat) (eps : Q) (o : nat) : nat := if Qle_bool (1#2) eps then q else o.
Definition q_par : dparams := DParams (1#2) 1 (2#100) 5 2 3 2 3 true.
(** The defaults of the constructor (dqn.py:57-61). *)
Definition q_default : dparams := DParams (1#10) 1 (2#100) (50 * 1000) 32 1000 1 500 true.

Example demo_dqn : exists sf qf cf ntf its, dqn_learn q_next q_rew q_obs q_done q_reset false q_act (fun _ n => if n =? 9 then Stop else Go) (fun _ _ => 0%Q) (fun t i => t * i) q_par 12 true 3 0 (User 0 0) 7 = Some (sf, qf, cf, ntf, its) /\
  ntf = 9 /\ train_times its = [4; 6; 8] /\ target_times its = [6] /\ length (filter (is_signal 0 RolloutStart) its) = 4.
Proof.
  match goal with |- exists a b c d e, ?t = _ /\ _ => let r := eval vm_compute in t in match r with Some (?a, ?b, ?c, ?d, ?e) => exists a, b, c, d, e; split; [vm_compute; reflexivity|] end end.
  repeat split; vm_compute; reflexivity.
Qed.
Example demo_horizon : horizon q_default 9 = 0 /\ horizon q_default 10 = 1 /\ horizon q_par 12 = 6.
Proof. repeat split; vm_compute; reflexivity. Qed.
(** With the default exploration_fraction 0.1 fewer than ten timesteps raise. *)
Lemma few_raise p total : p_frac p = (1#10)%Q -> total < 10 -> horizon p total = 0.
Proof. intros Hf Ht. unfold horizon. rewrite Hf. do 10 (destruct total as [|total]; [reflexivity|]). lia. Qed.
