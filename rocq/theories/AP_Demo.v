(** Concrete cases that meet the hypotheses of the theorems about predict and action_probability. *)
From Coq Require Import List Arith ZArith Reals Lra Lia.
From Verif Require Import PD_Model PD_Spec PD_Proofs PD_Multi LS_Spec AP_Model AP_Spec AP_Proofs AP_Prob.
Import ListNotations.
Open Scope R_scope.

(** Observations with two entries, an action with one entry in [-1, 1]; the network triples the first entry. *)
Definition dspace : ospace := OBox [2%nat].
Definition dbox : aspace := ABox [-1] [1].
Definition dnet (r : list R) : list R := [3 * nth 0 r 0].
Example width_demo : width dspace = 2%nat. Proof. reflexivity. Qed.
Example one_demo : dspace <> OOther /\ (0 < width dspace)%nat /\ observations dspace [[1; 5]] /\ map dnet [[1; 5]] = [[3 * 1]] /\ box_ok dbox [3 * 1] /\
  exists y, predict (map dnet) false dspace dbox [2%nat] [1; 5] = Some (One y) /\ y = [1].
Proof.
  split; [discriminate|]. split; [cbn; lia|]. split; [repeat constructor|]. split; [reflexivity|]. split.
  - split; [reflexivity|]. split; [reflexivity|]. intros [|i] I; cbn in *; [lra|lia].
  - eexists. split; [reflexivity|]. cbn. f_equal. unfold Rmin, Rmax. destruct (Rle_dec (3 * 1) (-1)); destruct (Rle_dec _ 1); lra.
Qed.
Example batch_demo : observations dspace [[1; 5]; [0; 7]] /\ Forall (box_ok dbox) (map dnet [[1; 5]; [0; 7]]).
Proof.
  split; [repeat constructor|]. assert (B : forall x, box_ok dbox [x]) by (intros x; split; [reflexivity|split; [reflexivity|intros [|i] I; cbn in *; [lra|lia]]]).
  cbn [map]. constructor; [apply B|]. constructor; [apply B|constructor].
Qed.
Example refused_demo : [3%nat] <> oshape dspace /\ forall n, [3%nat] <> n :: oshape dspace.
Proof. split; [discriminate|intros n; discriminate]. Qed.

(** Values of three actions. *)
Definition dvals : list R := [1; 2; 0].
Example best_demo : first_best dvals 1.
Proof. split; [cbn; lia|]. split; intros j J; destruct j as [|[|[|j]]]; cbn in *; try lra; lia. Qed.
Example dueling_demo : dueling 5 [1; 2; 0] = [5; 6; 4].
Proof. unfold dueling. cbn. f_equal; [field|]. f_equal; [field|]. f_equal. field. Qed.
Example draw_demo : below [0; 0] 1 <= 3 / 4 < below [0; 0] 2.
Proof. unfold below, prob. cbn. rewrite !exp_0. lra. Qed.
Example step_demo : (2 < length dvals)%nat /\ prob dvals 2 < prob dvals 1.
Proof.
  split; [cbn; lia|]. assert (N : dvals <> []) by discriminate.
  destruct (Rlt_le_dec (prob dvals 2) (prob dvals 1)) as [H|H]; [exact H|]. exfalso.
  apply (prob_le dvals 1 2 N) in H. cbn in H. lra.
Qed.

Example parts_demo : parts [2%nat; 3%nat] [0; 0; 1; 2; 0] [[0; 0]; [1; 2; 0]] /\ Forall2 (fun a n => (a < n)%nat) [1%nat; 2%nat] [2%nat; 3%nat].
Proof. split; [split; reflexivity|]. repeat constructor. Qed.
Example bits_demo : In [1%nat; 0%nat] (bits (length [2; -1])). Proof. cbn. tauto. Qed.
(** A standard normal policy: the density at its mean is reported as that of a standard deviation of exp(1/2). *)
Example wide_demo : action_probability (ABox [-1] [1]) false false [[0] ++ [0]] [Real [0]] false = Some (One (density [0] [exp (1 / 2)] [0])).
Proof. rewrite box_value by reflexivity. cbn [map]. now rewrite exp_0. Qed.
(** A batch of two observations, with two Gaussian coordinates each. *)
Example two_rows_demo : Forall (fun p : list R * list R => length (snd p) = length (fst p)) [([0; 1], [2; -1]); ([1; 1], [0; 0])] /\ Forall (fun f : list R => f <> []) [[0; 1]; [2; 3]].
Proof. split; repeat constructor; discriminate. Qed.
