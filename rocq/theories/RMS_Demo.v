From Coq Require Import List Arith ZArith QArith Lia Lqa Bool Permutation.
From Verif Require Import Base Opt_Model RMS_Model RMS_Spec RMS_Proofs RMS_Norm.
Import ListNotations.
Open Scope nat_scope.

(** Three observations of two numbers, in one batch, and in two batches in another order. *)
Definition rowsA : list (list Q) := [[1; 4]; [2; 6]; [6; 5]]%Q.
Definition bsA := [rowsA].
Definition bsB := [[[6; 5]]; [[1; 4]; [2; 6]]]%Q.
Definition st_of (o : option rms) : rms := match o with Some s => s | None => rms_new 0 0 end.
Definition stA := st_of (rms_run (rms_new 0 2) bsA).
Definition stB := st_of (rms_run (rms_new 0 2) bsB).
Lemma runA : rms_run (rms_new 0 2) bsA = Some stA.
Proof. vm_compute. reflexivity. Qed.
Lemma runB : rms_run (rms_new 0 2) bsB = Some stB.
Proof. vm_compute. reflexivity. Qed.
Lemma permAB : Permutation (concat bsA) (concat bsB).
Proof. unfold bsA, bsB, rowsA. simpl. apply (Permutation_app_comm [[1; 4]; [2; 6]]%Q [[6; 5]]%Q). Qed.
Lemma okA : Forall (batch_ok 2) bsA.
Proof. repeat constructor; discriminate. Qed.
(** Mean 3 and variance 14/3 in the first column. *)
Lemma valA : (nth 0 (r_mean stA) 0 == 3 /\ nth 0 (r_var stA) 0 == 14 # 3)%Q.
Proof. split; reflexivity. Qed.
(** Two workers, two rounds. *)
Definition roundsA : list (list (list (list Q))) := [[[[6; 5]]; [[1; 4]]]; [[[2; 6]]; []]]%Q.
Lemma permAM : Permutation (concat bsA) (concat (map (@concat _) roundsA)).
Proof. unfold bsA, roundsA, rowsA. simpl. apply (Permutation_app_comm [[1; 4]; [2; 6]]%Q [[6; 5]]%Q). Qed.

(** VecNormalize over two environments with one observed number. *)
Definition par0 := VPar true true true 10 10 (1 # 2) (1 # 100000000).
Definition sq0 (x : Q) : Q := x.
Definition es0 := [Resetted [[0]; [0]]; Stepped [[1]; [3]] [1; 2] [false; true]; Stepped [[5]; [2]] [1; 4] [false; false]]%Q.
Definition out0 := match vn_run sq0 par0 (vnorm_new 2 1) es0 with Some r => r | None => (vnorm_new 0 0, []) end.
Definition vst0 := fst out0.
Lemma runV : vn_run sq0 par0 (vnorm_new 2 1) es0 = Some (vst0, snd out0).
Proof. vm_compute. reflexivity. Qed.
Lemma evV : Forall (event_ok 2 1) es0.
Proof. repeat constructor. Qed.
(** Four observations counted; six returns: two zeros, 1 and 2, then 3/2 and 4. *)
Lemma seenV : step_obs es0 = [[1]; [3]; [5]; [2]]%Q /\ Forall2 Qeq (returns_seen (1 # 2) (repeat 0%Q 2) es0) [0; 0; 1; 2; 3 # 2; 4]%Q.
Proof. split; [reflexivity|]. repeat constructor. Qed.
Definition par1 := VPar false true true 10 10 (1 # 2) (1 # 100000000).
Definition out1 := match vn_run sq0 par1 vst0 es0 with Some r => r | None => (vnorm_new 0 0, []) end.
Lemma runV1 : vn_run sq0 par1 vst0 es0 = Some (fst out1, snd out1).
Proof. vm_compute. reflexivity. Qed.
Lemma runV2 : vn_run sq0 par0 (vnorm_new 2 1) ([Resetted [[0]; [0]]; Stepped [[1]; [3]] [1; 2] [false; true]] ++ [Stepped [[5]; [2]] [1; 4] [false; false]])%Q = Some (vst0, snd out0).
Proof. exact runV. Qed.
Lemma posV : Forall (fun v => 0 < v + vp_eps par0)%Q (r_var (v_obs vst0)).
Proof. repeat constructor. Qed.
Lemma posVr : (0 < nth 0 (r_var (v_rrms vst0)) 0 + vp_eps par0)%Q.
Proof. reflexivity. Qed.
