(** Concrete runs of Harris hawks. *)
From Coq Require Import List Arith ZArith QArith Bool Lia.
From Verif Require Import Base BaseFacts Space_Model Space_Spec Opt_Model Opt_Spec Opt_Facts2 Pop_Model Pop_Spec Swarm_Model Swarm_Demo BAT_Demo HHO_Model.
Import ListNotations.
Open Scope nat_scope.

Definition dm_h (k i : nat) : hdraw :=
  HDraw (qnat (i + k) / 7)%Q (qnat i / 4)%Q (1#3) (i + k) (1#3) (1#2) (1#4) (fun j => qnat j / 5)%Q dm_vd dm_vd dm_vd.
Lemma dm_hho : exists r, hho_evolute one Mmin dm_fit dm_ds NearestInt 4 3 None dm_h dm_init = Some r /\
  (hr_y r < 125#4)%Q /\ length (hr_log r) = 12 /\ 1 <= length (hr_dives r).
Proof. eexists. split; [vm_compute; reflexivity|]. split; [reflexivity|]. split; [reflexivity|]. vm_compute. lia. Qed.

(** One generation, two hawks, both dive. *)
Definition hd_init : list (list Q) := [[5]; [6]]%Q.
Definition hd_draw (k i : nat) : hdraw := HDraw (3#5) 0 0 0 0 0 (1#2) (fun _ => 0%Q) dm_vd dm_vd dm_vd.
Lemma hd_ok : wf_dims bt_ds /\ good_init bt_ds 2 hd_init.
Proof. split; [demo_space|]. split; [reflexivity|]; demo_space. Qed.
Lemma hd_lost : exists r z, hho_evolute one Mmin bt_fit bt_ds NearestInt 2 1 None hd_draw hd_init = Some r /\
  In z (hr_last_dives r) /\ (bt_fit z < 5)%Q /\ (hr_y r == 5)%Q.
Proof. do 2 eexists. split; [vm_compute; reflexivity|]. split; [left; reflexivity|]. split; reflexivity. Qed.

(** With a randomised integer transformation an accepted dive is discretised again before it is
    evaluated with the next generation, so it can be lost in any generation. *)
Definition hi_ds : list dimn := [Dim true 0 10]%Q.
Definition hi_init : list (list Q) := [[5]; [6]]%Q.
Definition hi_vd (k : nat) : vdraw := VDraw (fun _ => 0%Q) (fun _ => k).
Definition hi_draw (k i : nat) : hdraw := HDraw (3#5) 0 0 0 0 0 (1#2) (fun _ => 0%Q) (hi_vd 0) (hi_vd 0) (hi_vd 5).
Lemma hi_ok : wf_dims hi_ds /\ good_init hi_ds 2 hi_init /\ discrete_ok Sigmoid hi_ds.
Proof. split; [demo_space|]. split; [split; [reflexivity|]; demo_space|]. split; [discriminate|]. right. repeat constructor; simpl; unfold Qlt; simpl; lia. Qed.
Lemma hi_lost : exists r z, hho_evolute one Mmin bt_fit hi_ds Sigmoid 2 2 None hi_draw hi_init = Some r /\
  In z (hr_dives r) /\ (bt_fit z == 0)%Q /\ (hr_y r == 5)%Q.
Proof. do 2 eexists. split; [vm_compute; reflexivity|]. split; [left; reflexivity|]. split; reflexivity. Qed.
