(** Cases that meet the hypotheses: a network that adds up angles. *)
From Coq Require Import List Reals Lra.
From Verif Require Import QP_Model QP_Spec QP_Proofs.
Import ListNotations.
Open Scope R_scope.

Definition d_net (pert : list R) : list R := [Rabs (total pert); 1; 2; 1].
Example demo_split : length (d_net [1; -3]) = 4%nat /\ Forall (fun a => 0 <= a) (d_net [1; -3]) /\ Exists (fun a => 0 < a) (d_net [1; -3]) /\ total (d_net [1; -3]) <> 0.
Proof.
  assert (E : d_net [1; -3] = [2; 1; 2; 1]).
  { unfold d_net, total. simpl. f_equal. unfold Rabs. destruct (Rcase_abs _); lra. }
  rewrite E. split; [reflexivity|]. split; [repeat constructor; lra|]. split; [left; lra|]. unfold total. simpl. lra.
Qed.
Example demo_scale : 3 <> 0 /\ (fun p => map (fun a => a * 3) (d_net p)) [1; -3] = map (fun a => a * 3) (d_net [1; -3]).
Proof. split; [lra|reflexivity]. Qed.
Example demo_zero : total ((fun _ => [1; -1; 0; 0]) [0]) = 0.
Proof. unfold total. simpl. lra. Qed.
