(** Concrete cases for the theorems about the classic benchmark functions (C80). *)
From Coq Require Import List Arith Reals Lia Lra.
From Verif Require Import BM_Model BM_Spec BM_Proofs BM_Final.
Import ListNotations.
Open Scope R_scope.

Example C80_random : random01 (fun i => 1 / 2). Proof. intros i. lra. Qed.
(** Two dimensions meet the hypotheses for every function; the points listed for Qing are two different points. *)
Example C80_dims : forall b, (least_dim b <= 2)%nat /\ (single_dim b <= 2)%nat. Proof. intros []; cbn; lia. Qed.
Example C80_qing2 : In [sqrt 1; sqrt (1 + 1)] (bench_minima Qing 2) /\ In [- sqrt 1; - sqrt (1 + 1)] (bench_minima Qing 2) /\ sqrt 1 <> - sqrt 1.
Proof. split; [left; reflexivity|]. split; [right; left; reflexivity|]. rewrite sqrt_1. lra. Qed.
(** Values away from the minimum are larger. *)
Example C80_away : bench_fun (fun _ => 0) Rosenbrock [0; 1] = Some 101 /\ bench_fun (fun _ => 0) Sphere [3; 4] = Some 25 /\ bench_fun (fun _ => 0) Qing [1; 2] = Some 4.
Proof. cbn. unfold rosenbrock, sphere, qing, pairs, enum, rsum, sq. cbn. repeat split; f_equal; lra. Qed.
(** The second point listed for Quartic is outside the bounds. *)
Example C80_quartic2 : In [2; 2] (bench_minima Quartic 2). Proof. right. left. reflexivity. Qed.
