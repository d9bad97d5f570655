(** Concrete runs of HCLPSO. *)
From Coq Require Import List Arith ZArith QArith Bool Lia.
From Verif Require Import Base BaseFacts Space_Model Space_Spec Opt_Model Opt_Spec Opt_Facts2 Pop_Model Pop_Spec Swarm_Model Swarm_Demo BAT_Demo HCLPSO_Model HCLPSO_Spec HCLPSO_Proofs.
Import ListNotations.
Open Scope nat_scope.

Definition line (q : Q) : Q := (1 + q)%Q.
Definition dm_fd (i : nat) : fdraw := FDraw (fun j => qnat ((i + j) mod 5) / 5)%Q (fun j => qnat ((i + 2 * j) mod 5) / 5)%Q (fun j => qnat ((i + j) mod 3) / 3)%Q i.
Definition dm_ci (i : nat) : cinit := CInit (fun j => qnat ((i + j) mod 5) / 5)%Q (fun j => qnat ((2 * i + j) mod 5) / 5)%Q dm_vd (dm_fd i).
Definition dm_cd (k i : nat) : cdraw := CDraw (fun j => qnat ((k + i + j) mod 5) / 5)%Q (fun j => (1#2)%Q) dm_vd (dm_fd (k + i)).

Lemma dm_hclpso : exists r, hc_evolute line Mmin dm_fit dm_ds NearestInt 2 2 3 dm_ci dm_cd None = Some r /\ length (hcr_log r) = 12 /\ length (hcr_first r) = 4.
Proof. eexists. split; [vm_compute; reflexivity|]. split; reflexivity. Qed.

Lemma dm_hc_draws : (forall i, unit_f (ci_f (dm_ci i))) /\ (forall k i, unit_f (cd_f (dm_cd k i))) /\
  (forall i j, (0 <= ci_vel (dm_ci i) j)%Q /\ (ci_vel (dm_ci i) j <= 1)%Q).
Proof.
  assert (U : forall a, (0 <= qnat (a mod 5) / 5)%Q /\ (qnat (a mod 5) / 5 <= 1)%Q).
  { intros a. pose proof (Nat.mod_upper_bound a 5 ltac:(lia)) as H. remember (a mod 5) as r. clear Heqr.
    do 5 (destruct r as [|r]; [split; vm_compute; discriminate|]). lia. }
  split; [|split]; intros; try (intros ?); cbn; split; apply U.
Qed.

(** One variable on [0,10]; the first particle starts at the optimum and is drawn away from it:
    its initial velocity is the largest one. *)
Definition hi_ci (i : nat) : cinit := CInit (fun _ => qnat i / 2)%Q (fun _ => 1%Q) dm_vd (FDraw (fun _ => 1%Q) (fun _ => 1%Q) (fun _ => 1%Q) 0).
Definition hi_cd (k i : nat) : cdraw := CDraw (fun _ => 0%Q) (fun _ => 0%Q) dm_vd (FDraw (fun _ => 1%Q) (fun _ => 1%Q) (fun _ => 1%Q) 0).
Lemma hi_lost : exists r, hc_evolute line Mmin bt_fit bt_ds NearestInt 1 1 1 hi_ci hi_cd None = Some r /\
  In [0 # 2]%Q (hcr_first r) /\ (bt_fit [0 # 2]%Q == 0)%Q /\ (hcr_y r == 198#100)%Q.
Proof. eexists. split; [vm_compute; reflexivity|]. split; [simpl; auto|]. split; reflexivity. Qed.

Lemma x0_ignored expf m fit ds mt g1 g2 ngen di drs l : length l = g1 + g2 ->
  hc_evolute expf m fit ds mt g1 g2 ngen di drs (Some l) = hc_evolute expf m fit ds mt g1 g2 ngen di drs None.
Proof. intros H. unfold hc_evolute. destruct l as [|a l]; auto. rewrite H, Nat.eqb_refl. reflexivity. Qed.
