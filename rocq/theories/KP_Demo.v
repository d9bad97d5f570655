(** Concrete knapsack environments. *)
From Coq Require Import List Arith ZArith QArith Qminmax Bool Lia.
From Verif Require Import Base Opt_Model KP_Model KP_Spec KP_Proofs.
Import ListNotations.
Open Scope nat_scope.

(** Five objects, capacity 7, two bags per episode. *)
Definition kd : kconf := KConf [(10, 3); (7, 3); (4, 2); (9, 5); (1, 1)]%Q 7%Q 2.
Definition kd_rnd (k : nat) : nat := k.
Example kd_wf : wf_kp kd.
Proof. split; [simpl; lia|]. split; [repeat constructor; intro; discriminate|]. split; [discriminate|simpl; lia]. Qed.
(** The first object, then the third of those left (object 4), which is too heavy. *)
Example kd_first : exists st0 r st, kp_new kd = Some st0 /\ kp_step_list kd_rnd kd st0 [0; 2; 0; 0; 0] = Some (r, st) /\ kr_x r = [1] /\ (kr_reward r == 10)%Q /\ kr_done r = false.
Proof. do 3 eexists. split; [reflexivity|]. split; [vm_compute; reflexivity|]. vm_compute. auto. Qed.
(** Objects 1, 2, 5 fit, object 3 does not. *)
Example kd_second : exists st0 st r st', kp_new kd = Some st0 /\ ofold (kp_op kd_rnd kd) st0 [KList [0; 2; 0; 0; 0]; KReset] = Some st /\
  Forall (list_op kd) [KList [0; 2; 0; 0; 0]; KReset] /\
  kp_step_list kd_rnd kd st [0; 0; 2; 0; 0] = Some (r, st') /\ kr_x r = [1; 2; 5] /\ (kr_reward r == 18)%Q /\ kr_done r = true /\ (k_best st' == 18)%Q.
Proof.
  do 4 eexists. split; [reflexivity|]. split; [vm_compute; reflexivity|]. split; [repeat constructor|]. split; [vm_compute; reflexivity|]. vm_compute. auto.
Qed.
(** Object by object. *)
Example kd_one : exists st r st', orderly kd_rnd kd st /\ k_list st = [1; 2] /\ kp_step_one kd_rnd kd st 0 = Some (r, st') /\ kr_x r = [1; 2] /\ (kr_reward r == 17)%Q.
Proof.
  destruct (kp_new kd) as [s0|] eqn:E0; [|discriminate].
  destruct (kp_step_one kd_rnd kd s0 0) as [[r1 s1]|] eqn:E1; [|exfalso; vm_compute in E0; injection E0 as <-; vm_compute in E1; discriminate].
  destruct (kp_step_one kd_rnd kd s1 0) as [[r2 s2]|] eqn:E2.
  2:{ exfalso; vm_compute in E0; injection E0 as <-; vm_compute in E1; injection E1 as <- <-; vm_compute in E2; discriminate. }
  exists s2. assert (O : orderly kd_rnd kd s2) by (eapply orderly_step; [eapply orderly_step; [apply orderly_new; eauto|eauto]|eauto]).
  vm_compute in E0; injection E0 as <-; vm_compute in E1; injection E1 as <- <-; vm_compute in E2; injection E2 as <- <-.
  do 2 eexists. split; [exact O|]. split; [reflexivity|]. split; [vm_compute; reflexivity|]. vm_compute. auto.
Qed.

(** With capacity 14 everything fits. *)
Definition kd_big : kconf := KConf (kc_objs kd) 14%Q 2.
Example kd_big_fits : wf_kp kd_big /\ Forall (fun p => (0 <= snd p)%Q) (kc_objs kd_big) /\ (load kd_big (objects kd_big) <= kc_cap kd_big)%Q.
Proof. split; [|split; [repeat constructor; discriminate|vm_compute; discriminate]]. destruct kd_wf as (A & B & _ & D). repeat split; auto. discriminate. Qed.
Lemma kd_big_raises : exists c st0, wf_kp c /\ Forall (fun p => (0 < snd p)%Q) (kc_objs c) /\ (load c (objects c) <= kc_cap c)%Q /\ kp_new c = Some st0 /\
  forall rnd acts, length acts = length (kc_objs c) -> kp_step_list rnd c st0 acts = None.
Proof.
  destruct kd_big_fits as (W & P & C). destruct (kp_new kd_big) as [st0|] eqn:E0; [|discriminate]. exists kd_big, st0. split; auto. split.
  { repeat constructor. } split; auto. split; auto.
  intros rnd acts L. apply (kp_all_fit rnd kd_big W P C [] st0 st0 acts E0); auto.
Qed.

(** A reset in the middle of a bag keeps the objects of the list and the place of the next one. *)
Lemma kd_reset : exists rnd c st0 r1 st1 r2 st2, wf_kp c /\ kp_new c = Some st0 /\ kp_step_one rnd c st0 0 = Some (r1, st1) /\
  kp_step_one rnd c (kp_reset c st1) 0 = Some (r2, st2) /\ ~ NoDup (kr_x r2) /\ (kc_cap c < load c (kr_x r2))%Q.
Proof.
  exists kd_rnd, (KConf (kc_objs kd) 5%Q 2). do 5 eexists. split.
  { destruct kd_wf as (A & B & _ & D). repeat split; auto. discriminate. }
  split; [reflexivity|]. split; [vm_compute; reflexivity|]. split; [vm_compute; reflexivity|]. split; [|vm_compute; reflexivity].
  cbn. intros N. inversion N; subst. apply H1. simpl; auto.
Qed.
