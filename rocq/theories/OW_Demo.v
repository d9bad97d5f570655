(** Cases for C134. *)
From mathcomp Require Import all_ssreflect all_algebra.
From mathcomp Require Import realalg.
From Verif Require Import OW_Model OW_Spec OW_Proofs.
Set Implicit Arguments. Unset Strict Implicit. Unset Printing Implicit Defensive.
Import GRing.Theory Num.Theory.
Local Open Scope ring_scope.
(** The real algebraic numbers. *)
Definition K : rcfType := [rcfType of realalg].
(** A decomposition with orthonormal columns and rows, that of matrices with ones on the diagonal. *)
Definition demo_svd : svd_t K := fun m n _ => (pid_mx (minn m n), pid_mx (minn m n)).
Example demo_is_svd : is_svd demo_svd.
Proof. by move=> m n A; split; rewrite /= tr_pid_mx mul_pid_mx minnn ?(minn_idPr (geq_minl _ _)) ?(minn_idPr (geq_minr _ _)) pid_mx_1. Qed.
(** Both kinds of layers: the policy with fewer outputs than inputs, the first layer with more. *)
Example demo_kinds : (3 <= 64)%N /\ (4 <= 64)%N.
Proof. by []. Qed.
Example demo_columns : (weights demo_svd 2%:R (0 : 'M[K]_(3, 2)))^T *m weights demo_svd 2%:R (0 : 'M[K]_(3, 2)) = (2%:R ^+ 2)%:M.
Proof. by apply: weights_cols => //; exact: demo_is_svd. Qed.
(** The first layer of the network for images: 8 by 8 pixels of 4 channels. *)
Example demo_shape : flat_shape [:: 8; 8; 4; 32]%N = Some (256, 32)%N /\ flat_row 8 4 7 7 3 = 255%N /\ flat_shape [:: 3]%N = None.
Proof. by []. Qed.
(** An input is scaled. *)
Example demo_length : len2 (const_mx 1 *m weights demo_svd 3%:R (0 : 'M[K]_(2, 4))) = 3%:R ^+ 2 * len2 (const_mx 1 : 'rV[K]_2).
Proof. by apply: (proj1 (keeps_length _ _ _ demo_is_svd)). Qed.
