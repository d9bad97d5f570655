(** action_probability without actions for a batch of observations. *)
From Coq Require Import List Arith Lia ZArith Reals Lra.
From Verif Require Import PD_Model PD_Spec PD_Proofs PD_Multi PD_Gauss LS_Spec LS_Proofs AP_Model AP_Spec AP_Proofs AP_Prob.
Import ListNotations.
Open Scope R_scope.

Lemma batch_discrete : forall n flats, Forall (fun f => f <> []) flats ->
  proba_step (ADiscrete n) flats = Some (PRows (map (fun f => map (prob f) (actions (length f))) flats)).
Proof.
  intros n flats F. unfold proba_step. do 2 f_equal. apply map_ext_in. intros f I. apply softmax_probs. rewrite Forall_forall in F. now apply F.
Qed.
Lemma batch_box : forall lo hi l, Forall (fun p => length (snd p) = length (fst p)) l ->
  proba_step (ABox lo hi) (map (fun p => fst p ++ snd p) l) = Some (PParts [map fst l; map (fun p => map exp (snd p)) l]).
Proof.
  intros lo hi l F. unfold proba_step.
  assert (E : all_some (map halves (map (fun p : list R * list R => fst p ++ snd p) l)) = Some l).
  { induction F as [|[m s] t H F IH]; [reflexivity|]. cbn [map all_some fst snd] in *. rewrite halves_app by exact H. now rewrite IH. }
  now rewrite E.
Qed.
