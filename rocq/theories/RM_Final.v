(** Which table and which coating belong to which drum. *)
From Coq Require Import Reals List Arith Lia Lra.
From Verif Require Import RM_Model RM_Spec.
Import ListNotations.
Open Scope R_scope.
Theorem drum_tables m i : (i < 8)%nat ->
  (In (S i) [1; 4; 5; 8]%nat -> jm m i = jmA m /\ cangle i = 130 / 180 * PI) /\ (~ In (S i) [1; 4; 5; 8]%nat -> jm m i = jmB m /\ cangle i = 145 / 180 * PI).
Proof.
  intros H. do 8 (destruct i as [|i]; [split; intros K; simpl in K; first [exfalso; tauto | exfalso; lia | split; reflexivity]|]). lia.
Qed.
