From Coq Require Import List Arith ZArith QArith Lia Lqa Bool.
From Verif Require Import Base Opt_Model Ret_Model Ret_Spec Ret_Proofs Ret_Disc Ret_Retrace.
Import ListNotations.
Open Scope nat_scope.

(** Three steps of two environments; the episode of the second ends with step 1. *)
Definition rews0 : list (list Q) := [[1; 2]; [0; 1]; [3; 1]]%Q.
Definition vals0 : list (list Q) := [[5; 1]; [2; 2]; [4; 1]]%Q.
Definition dones0 : list (list bool) := [[false; false]; [false; false]; [false; true]].
Definition final0 : list bool := [false; false].
Definition lastv0 : list Q := [2; 6]%Q.
Lemma Rr0 : rect 3 2 rews0. Proof. split; [reflexivity|repeat constructor]. Qed.
Lemma Rv0 : rect 3 2 vals0. Proof. split; [reflexivity|repeat constructor]. Qed.
Lemma Rd0 : rect 3 2 dones0. Proof. split; [reflexivity|repeat constructor]. Qed.
Lemma Rd1 : rect 4 2 (dones0 ++ [final0]). Proof. split; [reflexivity|repeat constructor]. Qed.
(** The return of the second environment from step 0: 2 + 1/2 * 1. *)
Lemma gae0 : (entry 0 (gae_returns (1 # 2) 1 rews0 vals0 dones0 final0 lastv0) 0 1 == 5 # 2)%Q.
Proof. reflexivity. Qed.
(** One-environment batches for the retrace target. *)
Definition qr0 := q_retrace [1; 2]%Q [false; true] [1; 1]%Q [3; 4; 5]%Q [2; 1 # 2]%Q 1 2 (1 # 2).
Lemma qr0_val : exists l, qr0 = Some l /\ Forall2 Qeq l [13 # 4; 2]%Q.
Proof. eexists. split; [vm_compute; reflexivity|]. repeat constructor. Qed.

(** Two segments of a stream; a flag marks the first step of an episode. *)
Definition segs0 : list (list Q * list bool) := [([1; 2; 4], [false; false; true]); ([8; 16], [false; true])]%Q.
Lemma segs0_ok : Forall (fun s : list Q * list bool => length (fst s) = length (snd s)) segs0.
Proof. repeat constructor. Qed.
Lemma segs0_totals : qeq_pair (episode_totals 0 (concat (map (fun s => combine (fst s) (snd s)) segs0))) ([3; 12]%Q, 16%Q).
Proof. split; [repeat constructor|reflexivity]. Qed.
(** ACER hands over the flags of the last steps: the last reward of an episode is counted with the
    next one. *)
Definition acer_segs : list (list Q * list bool) := [([1; 2], [false; true]); ([4; 8], [false; true])]%Q.
Lemma acer_wrong : ~ qeq_pair (snd (logger_run 0 acer_segs), fst (logger_run 0 acer_segs)) (ending_totals 0 (concat (map (fun s => combine (fst s) (snd s)) acer_segs))).
Proof. vm_compute. intros [H _]. inversion H; subst. discriminate. Qed.
(** Two columns, the first predicted exactly. *)
Definition yt0 : list (list Q) := [[0; 2]; [0; 2]]%Q.
Definition yp0 : list (list Q) := [[0; 2]; [0; 0]]%Q.
Lemma ev2d_wrong : ~ (nth 0 (explained_variance_2d yp0 yt0) 0 == 1)%Q.
Proof. vm_compute. discriminate. Qed.
