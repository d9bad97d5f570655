(** Cases that meet the hypotheses of C127. *)
From Coq Require Import Reals List Arith Lia Lra.
From Verif Require Import NZ_Model NZ_Spec NZ_Proofs.
Import ListNotations.
Open Scope R_scope.
(** Two components, started at (7, 8), with a reset and a change of an old array in between. *)
Definition plane : ou := OU (Vector [1; 2]) [1; 3] (15 / 100) (1 / 100) (Some 0%nat).
Definition program : list op := [Call [1; 2]; Call [3; 4]; Write 1 [0; 0]; Reset; Call [5; 6]; Call [7; 8]].
Example plane_meets : draws 2 program /\ careful plane program (construct plane (fun _ => [7; 8]) 1) /\ since program [] = [[5; 6]; [7; 8]].
Proof.
  split; [repeat constructor|]. split; [|reflexivity]. cbn. repeat (split; [exact I|]; intros ? [= <-]; cbn).
  split; [repeat split; [lia|discriminate|lia]|]. intros ? [= <-]. cbn. repeat (split; [exact I|]; intros ? [= <-]; cbn). exact I.
Qed.
Example plane_walks : exists w, run plane program (construct plane (fun _ => [7; 8]) 1) = Some w
  /\ nth 1 (noise w) 0 = walk (15 / 100) (1 / 100) 2 3 8 [6; 8].
Proof.
  destruct (walks plane [1; 2] (fun _ => [7; 8]) 1 program eq_refl eq_refl) as (w & E & _ & W).
  - apply plane_meets.
  - intros a [= <-]. split; [lia|reflexivity].
  - apply plane_meets.
  - exists w. split; [exact E|]. rewrite W by (cbn; lia). reflexivity.
Qed.
Example default_rate : Rabs (1 - 15 / 100 * (1 / 100)) <= 9985 / 10000 < 1.
Proof. rewrite Rabs_right; lra. Qed.
(** Three distances: the middle one is exactly the desired one. *)
Example three : current (adapts (make_spec (1 / 10) (1 / 10) 2) [1; 1 / 10; 1 / 20]) = 1 / 5.
Proof.
  rewrite adapted by lra. unfold count, above, filter.
  repeat (match goal with |- context [Rlt_dec ?a ?b] => destruct (Rlt_dec a b); [try lra|try lra] end; cbn [negb length pow]); lra.
Qed.
(** A distance that grows with the noise. *)
Example growing : forall x, 0 < x -> (1 / 10 < 3 * x <-> 1 / 30 < x).
Proof. intros x H. lra. Qed.
