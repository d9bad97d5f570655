(** Witnesses and instances for the theorems about the training loops. *)
From Coq Require Import List Arith ZArith QArith Bool Lia Permutation.
From Verif Require Import Base BaseFacts Opt_Model Sched_Model CB_Model CB_Spec CB_Proofs CB_Total LN_Model LN_Spec LN_Proofs LN_Algs LN_Acer LN_More.
Import ListNotations.
Open Scope nat_scope.

Ltac run_it := match goal with |- exists a b c d, ?t = _ /\ _ => let r := eval vm_compute in t in match r with Some (?a, ?b, ?c, ?d) => exists a, b, c, d; split; [vm_compute; reflexivity|] end end.

(** An environment that counts its steps. *)
Definition d_next (s _ : nat) : nat := S s.
Definition d_rew (s _ : nat) : list Q := [inject_Z (Z.of_nat s)].
Definition d_obs (s : nat) : nat := 10 * s.
Definition d_dones (s : nat) : list bool := [s mod 3 =? 0].
Definition d_act (q o : nat) (_ : list bool) : nat := q + o.
Definition d_clip (a : nat) : nat := min a 25.
Definition d_run : runner nat nat := Runner 0 0 [true] 0.

Lemma stale_bad : exists (ans : nat -> nat -> answer) rs1 c1 nt1 its1 rs2 c2 nt2 its2,
  synced d_obs d_dones d_run /\
  a2c_learn d_next d_rew d_obs d_dones d_act d_clip ans (fun _ _ => 0%Q) 1 linear_schedule 1 2 4 true d_run (User 0 0) 0 = Some (rs1, c1, nt1, its1) /\
  a2c_learn d_next d_rew d_obs d_dones d_act d_clip ans (fun _ _ => 0%Q) 1 linear_schedule 1 2 4 true rs1 (User 1 0) nt1 = Some (rs2, c2, nt2, its2) /\
  exists t r, In t (trainings its2) /\ hd_error (t_rows t) = Some r /\ hd_error (filter (fun i => match i with IEnv _ _ => true | _ => false end) its2) = Some (IEnv (r_env rs1) (w_act r)) /\ w_obs r <> d_obs (r_env rs1).
Proof.
  pose (an := fun id n : nat => if (id =? 0) && (n =? 3) then Stop else Go).
  let r := eval vm_compute in (a2c_learn d_next d_rew d_obs d_dones d_act d_clip an (fun _ _ => 0%Q) 1 linear_schedule 1 2 4 true d_run (User 0 0) 0) in
  match r with Some (?a, ?b, ?c, ?d) =>
    let r2 := eval vm_compute in (a2c_learn d_next d_rew d_obs d_dones d_act d_clip an (fun _ _ => 0%Q) 1 linear_schedule 1 2 4 true a (User 1 0) c) in
    match r2 with Some (?a2, ?b2, ?c2, ?d2) =>
      exists an, a, b, c, d, a2, b2, c2, d2; split; [split; reflexivity|]; split; [vm_compute; reflexivity|]; split; [vm_compute; reflexivity|];
      let l := eval vm_compute in (trainings d2) in match l with ?t :: _ => exists t; let w := eval vm_compute in (t_rows t) in match w with ?x :: _ => exists x end end
    end
  end.
  split; [left; vm_compute; reflexivity|]. split; [reflexivity|]. split; [vm_compute; reflexivity|]. vm_compute. intros X; discriminate X.
Qed.

Example demo_synced : synced d_obs d_dones d_run.
Proof. split; reflexivity. Qed.
(** A learn of A2C with a stop in the second rollout. *)
Example demo_a2c : exists rs' c' nt' its, a2c_learn d_next d_rew d_obs d_dones d_act d_clip (fun _ n => if n =? 3 then Stop else Go) (fun _ _ => 0%Q) (7#10000) linear_schedule 1 2 10 true d_run (User 0 0) 5 = Some (rs', c', nt', its) /\
  nt' = 3 /\ length (trainings its) = 1 /\ map (@w_obs nat nat) (concat (map t_rows (trainings its))) = [0; 10].
Proof. run_it. repeat split; vm_compute; reflexivity. Qed.
(** Four updates of PPO2 with two epochs of three minibatches each. *)
Example demo_ppo : exists rs' c' nt' its, ppo_learn d_next d_rew d_obs d_dones d_act d_clip (fun _ _ => Go) (fun _ _ => 0%Q) (fun k l => if k mod 2 =? 0 then rev l else l) false 3 2 (fun f => f * (1#100))%Q 1 6 25 true d_run (User 0 0) 5 0 = Some (rs', c', nt', its) /\
  nt' = 24 /\ length (trainings its) = 4 /\ map t_epochs (trainings its) = repeat [[[5; 4]; [3; 2]; [1; 0]]; [[5; 4]; [3; 2]; [1; 0]]] 4.
Proof. run_it. repeat split; vm_compute; reflexivity. Qed.
Example demo_ppo_shuffle : forall k (l : list nat), Permutation (if k mod 2 =? 0 then rev l else l) l.
Proof. intros k l. destruct (k mod 2 =? 0); [symmetry; apply Permutation_rev|reflexivity]. Qed.
(** The same for a recurrent policy with four environments. *)
Example demo_ppo_env : exists rs' c' nt' its, ppo_learn d_next d_rew d_obs d_dones d_act d_clip (fun _ _ => Go) (fun _ _ => 0%Q) (fun k l => rev l) true 2 1 (fun f => f * (1#100))%Q 4 2 9 false d_run (User 0 0) 5 0 = Some (rs', c', nt', its) /\
  nt' = 13 /\ map t_epochs (trainings its) = [[[[6; 7; 4; 5]; [2; 3; 0; 1]]]].
Proof. run_it. repeat split; vm_compute; reflexivity. Qed.
(** ACER with room for two rollouts. *)
Example demo_acer : exists rs' c' nt' its, acer_learn d_next d_rew d_obs d_dones d_act d_clip (fun _ _ => Go) (fun _ _ => 0%Q) (fun u => u) (fun _ _ v => v) (7#10000) linear_schedule true 5 4 1 2 7 true d_run (User 0 0) 5 = Some (rs', c', nt', its) /\
  nt' = 8 /\ length (trainings its) = 4 /\ length (replays its) = 6.
Proof. run_it. repeat split; vm_compute; reflexivity. Qed.
Example demo_acer_again : exists rs' c' nt' its, acer_learn d_next d_rew d_obs d_dones d_act d_clip (fun _ _ => Go) (fun _ _ => 0%Q) (fun u => u) (fun _ _ v => v) (7#10000) linear_schedule true 5 40 1 2 7 false d_run (User 0 0) 8 = Some (rs', c', nt', its) /\
  nt' = 16 /\ length (trainings its) = 4 /\ length (replays its) = 0.
Proof. run_it. repeat split; vm_compute; reflexivity. Qed.

Lemma acer_overshoot {St O A} enext rew obs_of dones_of act clip ans ev pois draws lr0 crv ratio size start e n total reset (rs : runner St O) c nt rs' c' nt' (its : list (item St O A)) : synced obs_of dones_of rs ->
  acer_learn enext rew obs_of dones_of act clip ans ev pois draws lr0 crv ratio size start e n total reset rs c nt = Some (rs', c', nt', its) ->
  length (trainings its) = (total + e * n - 1) / (e * n) ->
  (if reset then 0 else nt) + total <= nt' /\ nt' < (if reset then 0 else nt) + total + e * n.
Proof.
  intros Sy H. assert (Z : e * n <> 0). { unfold acer_learn in H. destruct (Nat.eqb_spec (e * n) 0); [discriminate H|auto]. }
  apply acer_spec in H; auto. cbv zeta in H. destruct H as (u & st & rw & outs & P & C & En & -> & _ & -> & _ & _).
  rewrite transcript_trainings, train_list, map_length, seq_length. intros ->.
  pose proof (calls_length _ _ _ _ _ _ C) as Lo. rewrite counts_length in Lo. unfold ends in En. destruct st; [lia|]. destruct En as (_ & En & _). rewrite <- Lo, En.
  pose proof (Nat.div_mod (total + e * n - 1) (e * n) Z) as D. pose proof (Nat.mod_upper_bound (total + e * n - 1) (e * n) Z) as B.
  set (q := (total + e * n - 1) / (e * n)) in *. replace (e * (q * n)) with (e * n * q) by lia. lia.
Qed.
