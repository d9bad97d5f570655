(** Concrete runs of the bat algorithm. *)
From Coq Require Import List Arith ZArith QArith Bool Lia.
From Verif Require Import Base BaseFacts Space_Model Space_Spec Opt_Model Opt_Spec Opt_Facts2 Pop_Model Pop_Spec Swarm_Model Swarm_Demo BAT_Model.
Import ListNotations.
Open Scope nat_scope.

Definition dm_bp : bat_par := BatPar 0 1 (1#2) (9#10) (9#10) true.
Definition dm_b1 (k i : nat) : bdraw1 := BDraw1 (fun j => qnat (i + j) / 9)%Q (1#2) (i, k, 1, 0) dm_vd.
Definition dm_b2 (k i : nat) : bdraw2 := BDraw2 (qnat i / 3)%Q (fun j => (1#3) - qnat k / 4)%Q dm_vd.
Definition half (q : Q) : Q := 1#2.

Lemma dm_bat : exists r, bat_evolute half Mmin dm_fit dm_ds NearestInt 4 dm_bp 1 3 dm_b1 dm_b2 dm_b2 dm_init = Some r /\
  (br_y r < 125#4)%Q /\ length (br_seen r) = 36.
Proof. eexists. split; [vm_compute; reflexivity|]. split; reflexivity. Qed.

(** One continuous variable; the initial population holds the optimum. *)
Definition bt_ds : list dimn := [Dim false 0 10]%Q.
Definition bt_fit (x : list Q) : Q := match x with [a] => a | _ => 0%Q end.
Definition bt_init : list (list Q) := [[0]; [5]; [6]; [7]; [8]]%Q.
Definition bt_par : bat_par := BatPar 1 1 (1#2) (9#10) (9#10) false.
(** Draws with which the whole swarm leaves the optimum. *)
Definition bt_1 (k i : nat) : bdraw1 := BDraw1 (fun _ => 1%Q) 1 (if i =? 0 then (1, 0, 0, 0) else (4, 0, 0, 0)) dm_vd.
Definition bt_2 (k i : nat) : bdraw2 := BDraw2 (1#4) (fun _ => 1%Q) dm_vd.

Lemma bt_ok : wf_dims bt_ds /\ good_init bt_ds 5 bt_init.
Proof. split; [demo_space|]. split; [reflexivity|]; demo_space. Qed.

Lemma bt_lost : exists r, bat_evolute half Mmin bt_fit bt_ds NearestInt 5 bt_par 1 1 bt_1 bt_2 bt_2 bt_init = Some r /\
  In [0]%Q (br_init r) /\ (bt_fit [0]%Q == 0)%Q /\ (br_y r == 3)%Q.
Proof. eexists. split; [vm_compute; reflexivity|]. split; [simpl; auto|]. split; reflexivity. Qed.
