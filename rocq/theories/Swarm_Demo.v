(** A small mixed problem used to show that the hypotheses of the theorems about population
    optimizers can be met. *)
From Coq Require Import List Arith ZArith QArith Bool Lia.
From Verif Require Import Base BaseFacts Space_Model Space_Spec Opt_Model Opt_Spec Opt_Facts2 Pop_Model Pop_Spec Swarm_Model GWO_Model.
Import ListNotations.
Open Scope nat_scope.

Definition dm_ds : list dimn := [Dim false 0 10; Dim true (-5) 5]%Q.
Definition dm_fit (x : list Q) : Q := match x with [a; b] => ((a - 1) * (a - 1) + b * b)%Q | _ => 0%Q end.
Definition dm_init : list (list Q) := [[8; 3]; [5; -4]; [7#2; 5]; [9; 0]]%Q.
Definition dm_vd : vdraw := VDraw (fun i => 1#3)%Q (fun i => i).
Definition dm_w (k i : nat) : wdraw := WDraw (1#4) (1#5) (2#3) (qnat (k + i) / 7) (fun j => k + i + j) dm_vd.
Definition dm_s (k i : nat) : sdraw2 := SDraw2 (fun j => 1#4)%Q (fun j => qnat (j + i) / 3)%Q dm_vd.
Definition dm_m (k i : nat) : mdraw := MDraw (fun j => qnat (j + 1) / 5)%Q dm_vd.
Definition dm_j (k i : nat) : jdraw := JDraw (fun j => 1#2)%Q (fun j => qnat (i + 1) / 5)%Q dm_vd.
Definition dm_g (k i : nat) : gdraw := GDraw (fun t j => 1#2)%Q (fun t j => qnat (t + 1) / 4)%Q dm_vd.
Definition one (q : Q) : Q := 1%Q.
Definition dm_cos (q : Q) : Q := (- (1#2))%Q.

Lemma dm_ok : wf_dims dm_ds /\ good_init dm_ds 4 dm_init /\ (forall mt, mt <> OtherMethod -> discrete_ok mt dm_ds).
Proof.
  split; [demo_space|]. split; [split; [reflexivity|]; demo_space|].
  intros mt H. split; auto. right. repeat constructor; simpl; try discriminate; unfold Qlt; simpl; lia.
Qed.

(** Draws under which only the last individual moves. *)
Definition dm_j2 (k i : nat) : jdraw := JDraw (fun j => if i =? 3 then 1 else 0)%Q (fun j => 0%Q) dm_vd.

Lemma dm_runs :
  (exists r, woa_evolute one dm_cos Mmin dm_fit dm_ds Sigmoid 4 2 1 3 None None dm_w dm_init = Some r /\ (pr_by r < 125#4)%Q /\ length (pr_log r) = 16) /\
  (exists r, ssa_evolute one Mmin dm_fit dm_ds NearestInt 4 3 (C1Scalar (1#2)) dm_s dm_init = Some r /\ (pr_by r < 125#4)%Q /\ length (pr_log r) = 16) /\
  (exists r, mfo_evolute one dm_cos Mmin dm_fit dm_ds NearestInt 4 1 3 None dm_m dm_init = Some r /\ (pr_by r < 125#4)%Q /\ length (pr_log r) = 12) /\
  (exists r, jaya_evolute one Mmin dm_fit dm_ds NearestInt 3 dm_j dm_init = Some r /\ (pr_by r < 125#4)%Q /\ length (pr_log r) = 16) /\
  (exists r, gwo_evolute one Mmin dm_fit dm_ds NearestInt 3 None dm_g dm_init = Some r /\ (gr_y r < 125#4)%Q /\ length (gr_log r) = 12).
Proof. repeat split; eexists; (split; [vm_compute; reflexivity|split; [reflexivity|reflexivity]]). Qed.

Lemma dm_jaya_worst : exists st wi ws f0 f1,
  gens (jaya_gen one Mmin dm_fit dm_ds NearestInt 3 dm_j2) 1 1 (jaya_start Mmin dm_fit dm_init) = Some st /\
  ja_worst st = Some (wi, ws) /\ nth_error (ja_fits st) wi = Some f1 /\ nth_error (ja_fits st) 0 = Some f0 /\ (f0 < f1)%Q.
Proof. do 5 eexists. split; [vm_compute; reflexivity|]. split; [reflexivity|]. split; [reflexivity|]. split; [reflexivity|]. reflexivity. Qed.
