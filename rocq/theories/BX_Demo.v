(** Cases that meet the hypotheses. *)
From Coq Require Import List Reals Lra Permutation.
From Verif Require Import BM_Model BX_Model BX_Spec BX_Proofs.
Import ListNotations.
Open Scope R_scope.

Example demo_a1 : 0 < alpinen1 [0; PI / 2] /\ Permutation [0; PI / 2] [PI / 2; 0].
Proof. split; [|apply perm_swap]. rewrite !a1_cons. unfold alpinen1. simpl. rewrite sin_PI2. pose proof PI2_3_2. rewrite Rmult_0_l, Rabs_R0, Rabs_pos_eq by lra. lra. Qed.
Example demo_a2 : alpinen2 [PI / 2; 1] = Some (sqrt (PI / 2) * (sqrt 1 * sin 1)) /\ alpinen2 [PI / 2; -1; 1] = None.
Proof.
  pose proof PI2_3_2. split.
  - rewrite (proj1 (a2_value _)) by (repeat constructor; lra). simpl. rewrite sin_PI2. f_equal. lra.
  - apply a2_value. right. left. lra.
Qed.
Example demo_ridge : ridge [-7; 3; 4] = Some (-2).
Proof. rewrite (proj1 (ridge_value _ _)). f_equal. simpl. replace (3 * 3 + (4 * 4 + 0)) with (5 * 5) by lra. rewrite sqrt_square; lra. Qed.
