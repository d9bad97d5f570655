(** C138: the power of quadrants of the microreactor (Reals). *)
From Coq Require Import List Reals.
From Verif Require Import QP_Model QP_Spec QP_Proofs.
Import ListNotations.
Open Scope R_scope.

(** C138: unless the outputs of the network add up to zero the shares are finite, add up to 1 and are the outputs divided by their sum. *)
Theorem C138_sum : forall predict pert, total (predict pert) <> 0 -> exists v, finite (fst (eval predict pert)) v /\ length v = length (predict pert) /\ total v = 1 /\
  forall i a, nth_error (predict pert) i = Some a -> exists r, nth_error v i = Some r /\ r * total (predict pert) = a.
Proof. exact split_sum. Qed.
Print Assumptions C138_sum.
(** C138: if no output is negative and one is positive, every share is between 0 and 1. *)
Theorem C138_shares : forall predict pert, Forall (fun a => 0 <= a) (predict pert) -> Exists (fun a => 0 < a) (predict pert) ->
  exists v, finite (fst (eval predict pert)) v /\ total v = 1 /\ Forall (fun r => 0 <= r <= 1) v.
Proof. exact split_shares. Qed.
Print Assumptions C138_shares.
(** C138, finding: if they add up to zero, nothing raises and no share is a number. *)
Theorem C138_number_refuted : forall predict pert, total (predict pert) = 0 -> forall x, In x (fst (eval predict pert)) -> ~ is_number x.
Proof. exact split_zero. Qed.
Print Assumptions C138_number_refuted.
(** C138: outputs that differ by a factor give the same shares. *)
Theorem C138_scale : forall predict predict' pert pert' k, k <> 0 -> predict' pert' = map (fun a => a * k) (predict pert) -> total (predict pert) <> 0 ->
  fst (eval predict' pert') = fst (eval predict pert).
Proof. exact split_scale. Qed.
Print Assumptions C138_scale.
(** C138: the angles given are not changed. *)
Theorem C138_angles : forall predict pert, snd (eval predict pert) = pert.
Proof. exact angles_kept. Qed.
Print Assumptions C138_angles.
(** C138: for four such outputs the objective made of the shares is between 0 and 3/2, and 0 exactly if all outputs are the same. *)
Theorem C138_objective : forall predict pert, length (predict pert) = 4%nat -> Forall (fun a => 0 <= a) (predict pert) -> Exists (fun a => 0 < a) (predict pert) ->
  exists d, deviation (fst (eval predict pert)) = Some d /\ 0 <= d <= 3 / 2 /\ (d = 0 <-> forall a b, In a (predict pert) -> In b (predict pert) -> a = b).
Proof. exact deviation_range. Qed.
Print Assumptions C138_objective.
