(** Concrete runs of EPSO. *)
From Coq Require Import List Arith ZArith QArith Bool Lia Lqa.
From Verif Require Import Base BaseFacts Space_Model Space_Spec Opt_Model Opt_Spec Opt_Facts2 Pop_Model Pop_Spec Swarm_Model Swarm_Demo BAT_Demo
  HCLPSO_Model HCLPSO_Spec HCLPSO_Demo EPSO_Model EPSO_Spec EPSO_Proofs.
Import ListNotations.
Open Scope nat_scope.

Definition ep_di (i : nat) : einit := EInit (fun j => qnat ((i + j) mod 5) / 5)%Q (fun j => i + j) (fun j => qnat ((2 * i + j) mod 5) / 5)%Q dm_vd (dm_fd i).
Definition ep_dr (k i : nat) : edraw := EDraw (qnat ((2 * k + 3 * i) mod 5) / 5)%Q (fun j => (1#2)%Q) (fun j => (1#2)%Q) (fun j => (1#4)%Q)
  (fun j => (1#4)%Q) (fun j => (1#2)%Q) (fun a j => (1#2)%Q) (dm_fd (k + i)) dm_vd.

Lemma ep_draws : (forall i, unit_f (ei_f (ep_di i))) /\
  (forall k i, unit_f (ed_f (ep_dr k i)) /\ (0 <= ed_prob (ep_dr k i))%Q /\ (ed_prob (ep_dr k i) < 1)%Q) /\ vel_unit ep_di.
Proof.
  assert (U : forall a, (0 <= qnat (a mod 5) / 5)%Q /\ (qnat (a mod 5) / 5 < 1)%Q).
  { intros a. pose proof (Nat.mod_upper_bound a 5 ltac:(lia)) as H. remember (a mod 5) as r. clear Heqr.
    do 5 (destruct r as [|r]; [split; [vm_compute; discriminate|vm_compute; reflexivity]|]). lia. }
  assert (V : forall i, unit_f (dm_fd i)). { intros i j. cbn. split; apply Qlt_le_weak, U. }
  split; [intros; apply V|]. split; [intros k i; split; [apply V|apply U]|]. intros i j. cbn. split; [apply U|apply Qlt_le_weak, U].
Qed.


(** What a run with learning period 2 shows: number of evaluations, events, probabilities. *)
Definition ep_look (g1 g2 ngen : nat) (dr : nat -> nat -> edraw) :=
  match ep_evolute line Mmin dm_fit dm_ds NearestInt g1 g2 false 2 ngen None ep_di dr with
  | Some r => Some (length (epr_log r), epr_evs r, map (map Qred) (epr_rates r))
  | None => None
  end.
Lemma ep_run : ep_look 2 2 4 ep_dr = Some (20,
  [[(2, 1, false); (3, 4, true)]; [(2, 3, true); (3, 1, false)]; [(2, 0, false); (3, 3, false)]; [(2, 3, false); (3, 0, true)]],
  [[1 # 5; 1 # 5; 1 # 5; 1 # 5; 1 # 5]; [1 # 5; 1 # 5; 1 # 5; 1 # 5; 1 # 5];
   [1 # 105; 1 # 105; 1 # 105; 101 # 105; 1 # 105]; [1 # 105; 1 # 105; 1 # 105; 101 # 105; 1 # 105]]%Q).
Proof. vm_compute. reflexivity. Qed.

(** A draw that always names the fourth strategy (LIPS). *)
Definition ep_dr3 (k i : nat) : edraw := EDraw (7 # 10)%Q (fun j => 0%Q) (fun j => 0%Q) (fun j => 0%Q) (fun j => 0%Q) (fun j => 0%Q) (fun a j => 0%Q) (dm_fd 0) dm_vd.
Lemma ep_two : (forall k i, unit_f (ed_f (ep_dr3 k i)) /\ (0 <= ed_prob (ep_dr3 k i))%Q /\ (ed_prob (ep_dr3 k i) < 1)%Q) /\
  forall lp, ep_evolute line Mmin dm_fit dm_ds NearestInt 1 1 false lp 3 None ep_di ep_dr3 = None.
Proof.
  split; [|intros lp; vm_compute; reflexivity]. intros k i. split; [|split; vm_compute; [discriminate|reflexivity]]. intros j. cbn.
  pose proof (Nat.mod_upper_bound j 5 ltac:(lia)) as H1. pose proof (Nat.mod_upper_bound (2 * j) 5 ltac:(lia)) as H2.
  change (0 + j) with j. change (0 + 2 * j) with (2 * j). split.
  - change ((qnat (j mod 5) / 5 <= 1)%Q). remember (j mod 5) as r. clear - H1. do 5 (destruct r as [|r]; [vm_compute; discriminate|]). lia.
  - change ((qnat ((2 * j) mod 5) / 5 <= 1)%Q). remember ((2 * j) mod 5) as r. clear - H2. do 5 (destruct r as [|r]; [vm_compute; discriminate|]). lia.
Qed.

(** Ten generations, one particle after the other always with the first strategy: the last one moves everybody. *)
Definition ep_dr0 (k i : nat) : edraw := EDraw 0%Q (fun j => 0%Q) (fun j => 0%Q) (fun j => 0%Q) (fun j => 0%Q) (fun j => 0%Q) (fun a j => 0%Q) (dm_fd 0) dm_vd.
Lemma ep_last : exists a b c, ep_look 2 2 10 ep_dr0 = Some (a, b, c) /\ nth_error b 8 = Some [(2, 0, false); (3, 0, false)] /\
  nth_error b 9 = Some [(0, 0, false); (1, 0, false); (2, 0, false); (3, 0, false)].
Proof. do 3 eexists. split; [vm_compute; reflexivity|]. split; reflexivity. Qed.

(** A success with the fifth strategy: the counter of generations without improvement goes from 5 to 6. *)
Lemma ep_stuck : exists u', ep_upd2 Mmin dm_fit dm_ds (EUst [Part [1; 0] [0; 0] [2; 0] 1 5 []]%Q (Grow 0) 1%Q [0;0;0;0;0] [0;0;0;0;0] []) 0 4 = Some u' /\
  eu_succ u' = [0;0;0;0;1] /\ map q_sl (eu_sw u') = [6].
Proof. eexists. split; [vm_compute; reflexivity|]. split; reflexivity. Qed.
