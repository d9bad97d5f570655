(** Runs of the ant colony and of XNES. *)
From Coq Require Import List Arith ZArith QArith Bool Lia.
From Verif Require Import Base BaseFacts Space_Model Space_Spec Opt_Model Opt_Spec Opt_Facts2 Pop_Model Pop_Spec Swarm_Model GWO_Model Swarm_Demo ACO_Model ACO_Spec XNES_Model XNES_Spec.
Import ListNotations.
Open Scope nat_scope.

Definition dm_ant (g i : nat) : antdraw := AntDraw (fun j => qnat ((i + j) mod 5) / 5)%Q (fun j => (qnat j - 1) / 2)%Q.
Lemma dm_ant_ok : (forall x, (0 < one x)%Q) /\ (0 < 1)%Q /\ (forall g i j, (an_r (dm_ant g i) j <= 1)%Q) /\ Forall (fun x => length x = length dm_ds) dm_init.
Proof.
  split; [intros; reflexivity|]. split; [reflexivity|]. split.
  - intros g i j. pose proof (Nat.mod_upper_bound (i + j) 5 ltac:(lia)). unfold dm_ant, an_r, qnat. apply Qle_shift_div_r; [reflexivity|]. rewrite Qmult_1_l. change 5%Q with (inject_Z 5). rewrite <- Zle_Qle. apply (inj_le _ 5). apply Nat.lt_le_incl. exact H.
  - repeat constructor.
Qed.

Lemma dm_aco : exists r, aco_evolute Mmin dm_fit dm_ds one 1 (1#2) 1 4 2 3 dm_ant dm_init = Some r /\ (ar_y r < 125#4)%Q /\ length (ar_log r) = 16.
Proof. eexists. split; [vm_compute; reflexivity|]. split; reflexivity. Qed.

(** The second variable is declared integer. *)
Lemma dm_aco_frac : exists r x a b, aco_evolute Mmin dm_fit dm_ds one 1 (1#2) 1 4 2 1 (fun g i => AntDraw (fun _ => 0) (fun _ => -(1#2)))%Q dm_init = Some r /\
  In x (ar_log r) /\ x = [a; b] /\ ~ is_int b.
Proof.
  do 4 eexists. split; [vm_compute; reflexivity|]. split; [right; right; right; right; left; reflexivity|]. split; [reflexivity|].
  intros [z Hz]. unfold Qeq in Hz. simpl in Hz. lia.
Qed.

Definition xd_fit (x : list Q) : Q := match x with [a] => (a + 1)%Q | _ => 0%Q end.
Definition xd_ds : list dimn := [Dim true 0 10]%Q.
Definition xd_call1 : list (list (list Q)) := [[[3]; [7]]]%Q.
Definition xd_call2 : list (list (list Q)) := [[[5#2]; [-4]]; [[8]; [1]]]%Q.
Lemma xd_ok : wf_dims xd_ds /\ good_calls xd_ds 2 [xd_call1; xd_call2].
Proof. split; [demo_space|]. repeat constructor. Qed.
Lemma xd_signs : exists st st' r1 r2,
  xn_evolute Mmin xd_fit xd_ds xn_new xd_call1 = Some (st, r1) /\ xn_evolute Mmin xd_fit xd_ds st xd_call2 = Some (st', r2) /\
  Forall2 Qeq (xr_hist r1) [4]%Q /\ Forall2 Qeq (xr_hist r2) [-4; 1; 1]%Q /\ (xr_y r2 == 1)%Q /\
  In [5#2]%Q (xn_log st').
Proof. do 4 eexists. split; [vm_compute; reflexivity|]. split; [vm_compute; reflexivity|]. split; [repeat constructor|]. split; [repeat constructor|]. split; [reflexivity|]. simpl. auto. Qed.
