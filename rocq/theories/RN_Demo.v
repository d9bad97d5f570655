From Coq Require Import Ascii String List Arith ZArith QArith Bool Lia.
Import ListNotations.
Require Import Verif.IP_Model Verif.RN_Model Verif.RN_Spec Verif.RN_Proofs.
Open Scope list_scope. Open Scope nat_scope.

(** Rewards that rise to step 10 and fall after it. *)
Definition rewards (t : nat) : option (list Q) := if t <? 4 then None else Some [0%Q; inject_Z (Z.of_nat (if t <=? 10 then t else 20 - t)); 3%Q].
Definition w1 : world := World rewards (fun t => t =? 10) (Some [1%Q]) true.
Definition c1 : cb := Cb 5 2 20.
Definition card_of (a : algo) : list (text * nat) := map (fun x => (fst x, 7)) (table (card_name a)).
Example full1 a : full_card a (card_of a).
Proof. intros k. unfold card_of. rewrite map_map. reflexivity. Qed.
Example runner1 : runner PPO MTrain (card_of PPO) c1 w1 2 3 (fun _ => true) = ([(LastModel, 3); (BestModel, 1)], 1) /\ runner DQN MTrain (card_of DQN) c1 w1 1 1 (fun _ => true) = ([], 1).
Proof. split; reflexivity. Qed.
Example ready1 : readable c1 w1.
Proof. repeat split; discriminate. Qed.
(** Two environments, five steps: the total is two rollouts; the process ends in the second. *)
Example a2c1 : train A2C MTrain c1 w1 2 5 (fun _ => true) = ([(LastModel, 1); (BestModel, 0)], 1).
Proof. reflexivity. Qed.
Example readings1 : map snd (readings c1 w1 (learn_events A2C 2 5 (fun _ => true) 20) 0) = [0; 1].
Proof. reflexivity. Qed.
(** Three steps: three whole rollouts, all trained, and the checks at 10 and at the end. *)
Example ppo1 : train PPO MTrain c1 w1 2 3 (fun _ => true) = ([(LastModel, 3); (BestModel, 1)], 1).
Proof. reflexivity. Qed.
Example acer1 : train ACER MTrain c1 w1 2 3 (fun _ => true) = ([(LastModel, 3); (BestModel, 1)], 1) /\ fst (train ACER MTrain c1 w1 3 3 (fun _ => true)) = [(LastModel, 3); (BestModel, 1)].
Proof. split; reflexivity. Qed.
Example dqn1 : train DQN MTrain c1 w1 1 1 (fun t => 8 <=? t) = ([(LastModel, 12); (BestModel, 2)], 1).
Proof. reflexivity. Qed.
(** One rollout only. *)
Lemma untrained {V} a m (card : list (text * V)) c w ncores n_steps trains : a = A2C \/ a = PPO -> full_card a card -> 1 <= n_steps -> readable c w -> total_timesteps c = n_envs_of ncores * n_steps ->
  holds LastModel 0 (fst (runner a m card c w ncores n_steps trains)).
Proof.
  intros Ha F Hs R T. rewrite (runner_train a m card c w ncores n_steps trains) by (try exact F; destruct Ha; subst; discriminate). pose proof (n_envs_pos ncores) as He. set (n_envs := n_envs_of ncores) in *. assert (X : total_timesteps c <> 0) by (rewrite T; nia). pose proof (on_policy_rounds a m c w n_envs n_steps trains Ha He Hs R ltac:(lia)) as H.
  unfold rollout_rounds in H. rewrite T in H. rewrite Nat.mod_same, Nat.div_same in H by nia. exact H.
Qed.
Example untrained1 : train A2C MTrain c1 w1 4 5 (fun _ => true) = ([(LastModel, 0); (BestModel, 0)], 1).
Proof. reflexivity. Qed.
(** The frequency 5 with two cores becomes 6: 6, 12, 18 and so on are steps. *)
Example adjust1 : adjust 2 5 = 6 /\ In 12 (times (learn_events A2C 2 5 (fun _ => true) 40)).
Proof. split; [reflexivity|vm_compute; tauto]. Qed.
(** ACER trains past the total when the environments do not divide it. *)
Lemma past_demo : In 27 (times (learn_events ACER 3 3 (fun _ => true) 20)) /\ holds LastModel 3 (fst (runner ACER MTrain (card_of ACER) c1 w1 3 3 (fun _ => true))).
Proof. split; [vm_compute; tauto|left; reflexivity]. Qed.
Lemma zero_demo w : train DQN MTrain (Cb 0 10 100) w 1 1 (fun _ => true) = ([], 1).
Proof. apply zero_freq; [reflexivity|]. cbn [total_timesteps learn_events]. rewrite times_dqn. apply in_seq. lia. Qed.
