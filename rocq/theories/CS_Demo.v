(** Runs of cuckoo search. *)
From Coq Require Import List Arith ZArith QArith Bool Lia.
From Verif Require Import Base BaseFacts Space_Model Space_Spec Opt_Model Opt_Spec Opt_Facts2 Pop_Model Pop_Spec Swarm_Model GWO_Model Swarm_Demo CS_Model CS_Spec.
Import ListNotations.
Open Scope nat_scope.

(** One real variable in [0,10], to be minimised itself. *)
Definition cu_ds : list dimn := [Dim false 0 10]%Q.
Definition cu_fit (x : list Q) : Q := match x with [a] => a | _ => 0%Q end.
Definition cu_init : list (list Q) := [[1]; [2]]%Q.
Definition cu_fly (k j : nat) : cdraw := CDraw (fun _ => -300)%Q (fun _ => 1%Q) dm_vd.
Definition cu_drop (k : nat) : adraw := ADraw 1 (fun _ => 0) (fun _ => 1) (fun _ _ => 1%Q) (fun _ => dm_vd).

Lemma cu_ok : wf_dims cu_ds /\ good_init cu_ds 2 cu_init.
Proof. split; [demo_space|]. split; [reflexivity|]; demo_space. Qed.

Lemma cu_out : exists r, cs_evolute one Mmin cu_fit cu_ds NearestInt (1#4) 1 cu_fly cu_drop cu_init = Some r /\
  exists a, pr_bx r = [a] /\ (a < 0)%Q /\ (pr_by r == 0)%Q /\ ~ (pr_by r == cu_fit (pr_bx r))%Q.
Proof.
  eexists. split; [vm_compute; reflexivity|]. eexists. split; [reflexivity|]. split; [reflexivity|]. split; [reflexivity|]. intros H. discriminate H.
Qed.

(** One integer variable. *)
Definition ci_ds : list dimn := [Dim true 0 5]%Q.
Definition ci_init : list (list Q) := [[1]; [5]]%Q.
Definition ci_fly (k j : nat) : cdraw := CDraw (fun _ => 50)%Q (fun _ => 1%Q) dm_vd.
Lemma ci_ok : wf_dims ci_ds /\ good_init ci_ds 2 ci_init /\ discrete_ok Sigmoid ci_ds.
Proof. split; [demo_space|]. split; [split; [reflexivity|]; demo_space|]. split; [discriminate|]. right. repeat constructor; unfold Qlt; simpl; lia. Qed.
Lemma ci_raises : cs_evolute one Mmin cu_fit ci_ds Sigmoid (1#4) 1 ci_fly cu_drop ci_init = None.
Proof. vm_compute. reflexivity. Qed.

(** A mixed problem. *)
Definition dm_c (k j : nat) : cdraw := CDraw (fun i => qnat (j + 1))%Q (fun i => (-(30#1)))%Q dm_vd.
Definition dm_a (k : nat) : adraw := ADraw (1#2) (fun i => i + 1) (fun i => i + 2) (fun i j => 1#2)%Q (fun _ => dm_vd).
Lemma dm_cs : exists r, cs_evolute one Mmin dm_fit dm_ds NearestInt (1#4) 3 dm_c dm_a dm_init = Some r /\ (pr_by r < 125#4)%Q /\ length (pr_log r) = 28.
Proof. eexists. split; [vm_compute; reflexivity|]. split; reflexivity. Qed.
