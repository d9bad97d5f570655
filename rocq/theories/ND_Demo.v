(** Concrete cases for the theorems about sorting and selection. *)
From Coq Require Import List Arith ZArith QArith Bool Lia Lqa Permutation.
From Verif Require Import Base BaseFacts ND_Model ND_Spec ND_Proofs NDL_Model NSGA_Model NSGA_Spec.
Import ListNotations.
Open Scope nat_scope.

(** Six members, two objectives, three levels. *)
Definition six : list (list Q) := [[1; 1]; [2; 3]; [3; 2]; [1; 4]; [0; 0]; [2; 2]]%Q.
Lemma six_objectives : objectives 2 six.
Proof. repeat constructor. Qed.
Lemma six_sorted : sortNondominated six 6 = Some [[1; 2; 3]; [5]; [0]; [4]] /\
  exists fs, sortLogNondominated six 6 = Done fs /\ map (@length nat) fs = [3; 1; 1; 1].
Proof. split; [vm_compute; reflexivity|]. eexists. split; vm_compute; reflexivity. Qed.
Lemma six_selected : nsga_select NSGA2 0 false six 4 = Done [1; 2; 3; 5] /\
  (exists l, nsga_select NSGA2 0 true six 2 = Done l /\ length l = 2).
Proof. split; [vm_compute; reflexivity|]. eexists. split; [vm_compute; reflexivity|reflexivity]. Qed.

Definition alg3 : nsga_alg := NSGA3 3 (fun _ _ j => j mod 3) (fun _ _ j => inject_Z (Z.of_nat j)) (fun _ _ l => l).
Lemma alg3_ok : alg_ok alg3.
Proof. split; [intros; apply Nat.mod_upper_bound; lia|]. intros g t l x. split; [tauto|auto]. Qed.
Lemma six_selected3 : exists l, nsga_select alg3 0 true six 5 = Done l /\ length l = 5.
Proof. eexists. split; [vm_compute; reflexivity|reflexivity]. Qed.

Lemma refs_small : exists pts, uniform_reference_points 3 2 = Some pts /\ length pts = 6.
Proof. eexists. split; [vm_compute; reflexivity|reflexivity]. Qed.

Lemma dom_small : isDominated [1; 2]%Q [1; 3]%Q = true /\ isDominated [1; 2]%Q [2; 1]%Q = false /\ dominates [1; 3]%Q [1; 2]%Q.
Proof.
  split; [reflexivity|]. split; [reflexivity|]. split.
  - repeat constructor; unfold Qle; simpl; lia.
  - exists 1, 3%Q, 2%Q. repeat split.
Qed.

(** A front of four with two middle members. *)
Definition four : list (list Q) := [[0; 10]; [2; 7]; [6; 3]; [10; 0]]%Q.
Lemma four_different : forall f, f < 2 -> all_different four f.
Proof.
  intros f Hf i j u v Hi Hj E. assert (C : f = 0 \/ f = 1) by lia.
  destruct i as [|[|[|[|i]]]]; [| | | |destruct i; discriminate Hi]; (destruct j as [|[|[|[|j]]]]; [| | | |destruct j; discriminate Hj]); try reflexivity;
    exfalso; simpl in Hi, Hj; injection Hi as <-; injection Hj as <-; destruct C; subst f; simpl in E; unfold Qeq in E; simpl in E; lia.
Qed.
Lemma four_crowd : exists d, assignCrowdingDist four = Some d /\ d 0 = PInf /\ d 3 = PInf /\ exists q, d 1 = Fin q /\ (q == 13#20)%Q.
Proof.
  eexists. split; [vm_compute; reflexivity|]. split; [reflexivity|]. split; [reflexivity|]. eexists. split; [reflexivity|]. reflexivity.
Qed.
Lemma four_middle : (exists f, f < 2 /\ extreme four f [0; 10]%Q) /\ (forall f, f < 2 -> ~ extreme four f [2; 7]%Q).
Proof.
  split.
  - exists 0. split; [lia|]. left. intros u I. simpl in I. repeat (destruct I as [<-|I]; [unfold Qle; simpl; lia|]). destruct I.
  - intros f Hf [X|X]; (assert (C : f = 0 \/ f = 1) by lia; destruct C; subst f).
    + specialize (X [0; 10]%Q (or_introl eq_refl)). unfold Qle in X. simpl in X. lia.
    + specialize (X [10; 0]%Q (or_intror (or_intror (or_intror (or_introl eq_refl))))). unfold Qle in X. simpl in X. lia.
    + specialize (X [10; 0]%Q (or_intror (or_intror (or_intror (or_introl eq_refl))))). unfold Qle in X. simpl in X. lia.
    + specialize (X [0; 10]%Q (or_introl eq_refl)). unfold Qle in X. simpl in X. lia.
Qed.
