(** Concrete instances for C83. *)
From Coq Require Import List Bool Arith ZArith Reals Lia Lra.
From Verif Require Import BM_Model BM_Proofs CE_Model DT_Model DT_Spec DT_Proofs.
Import ListNotations.
Open Scope R_scope.

(** A point of the search space with three objectives whose objectives are (0, 0, 1), and one that is not optimal. *)
Example demo_eval : dtlz2 4 3 [1; 0; 1 / 2; 1 / 2] = Some [0; 0; 1].
Proof.
  unfold dtlz2. cbn [length Nat.eqb]. rewrite dt_eval_sph by (cbn; lia). cbn [Nat.sub firstn skipn sph map rev app]. unfold g2, hsin, hcos. cbn [map rsum fold_right]. replace (1 * PI / 2) with (PI / 2) by field. replace (0 * PI / 2) with 0 by field. rewrite sin_PI2, cos_PI2, sin_0, cos_0. unfold sq. f_equal. f_equal; [lra|]. f_equal; [lra|]. f_equal. lra.
Qed.
Example demo_box : in_box 4 [1; 0; 1 / 2; 1 / 2]. Proof. split; [reflexivity|]. repeat (apply Forall_cons; [lra|]). apply Forall_nil. Qed.
Example demo_opt : pareto_optimal 4 3 [1; 0; 1 / 2; 1 / 2].
Proof. apply dt_pareto; [lia|lia|apply demo_box|]. cbn [Nat.sub skipn]. repeat (apply Forall_cons; [lra|]). apply Forall_nil. Qed.
Example demo_not : ~ pareto_optimal 4 3 [1; 0; 1; 1 / 2].
Proof.
  intros H. apply dt_pareto in H; [|lia|lia|split; [reflexivity|repeat (apply Forall_cons; [lra|]); apply Forall_nil]]. cbn [Nat.sub skipn] in H. inversion H as [|? ? A B]; subst. lra.
Qed.
Example demo_front : on_front 3 [3 / 5; 0; 4 / 5].
Proof. split; [reflexivity|]. split; [repeat (apply Forall_cons; [lra|]); apply Forall_nil|]. unfold square_sum. cbn. lra. Qed.
(** Directions the front is asked for. *)
Example demo_dirs : Forall (fun v => length v = 3%nat /\ Forall (fun a => 0 <= a) v /\ exists a, In a v /\ a <> 0) [[1; 1; 0]; [0; 2; 5]].
Proof.
  repeat (apply Forall_cons; [split; [reflexivity|split; [repeat (apply Forall_cons; [lra|]); apply Forall_nil|]]|]); [exists 1; split; [cbn; auto|lra]|exists 2; split; [cbn; auto|lra]|apply Forall_nil].
Qed.
(** One variable and three objectives: the second and the third are the same. *)
Example demo_few : exists F, dtlz2 1 3 [1 / 3] = Some F /\ nth_error F 1 = nth_error F 2.
Proof. unfold dtlz2, dt_eval, dt_obj, slice_to, py_index. cbn. eexists. split; reflexivity. Qed.
