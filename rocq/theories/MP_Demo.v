(** Cases that meet the hypotheses of C125 and C126. *)
From Coq Require Import Reals List ZArith Arith Lia Lra.
From Verif Require Import MP_Model MP_Spec MP_Proofs MP_Ints MP_Running MP_Adam.
Import ListNotations.
Open Scope R_scope.
(** Two processes, with two rows and one row of two columns. *)
Definition pair : list array := [Array 2 [[1; 2]; [3; 6]]; Array 2 [[5; 1]]].
Definition swapped : list array := [Array 2 [[5; 1]; [1; 2]; [3; 6]]; Array 2 []].
Example pair_shaped : shaped 2 pair /\ shaped 2 swapped /\ pooled pair <> [].
Proof. repeat split; try discriminate; repeat constructor. Qed.
Example pair_permuted : Permutation.Permutation (pooled pair) (pooled swapped).
Proof.
  unfold pair, swapped, pooled. cbn. apply Permutation.Permutation_sym.
  apply (Permutation.Permutation_cons_append [[1; 2]; [3; 6]] [5; 1]).
Qed.
Example pair_mean : exists m, mpi_mean Float 2 pair = Some (m, 3) /\ m = [3; 3].
Proof.
  destruct pair_shaped as (S & _ & N). destruct (mean_exact 2 pair S N) as (m & E & L & M). exists m.
  assert (C : INR (length (pooled pair)) = 3) by (cbn; lra). rewrite C in E. split; [exact E|].
  apply (nth_eq_list m [3; 3] 2 L eq_refl). intros j J. rewrite M by exact J. unfold average, sum, column, pooled, pair.
  destruct j as [|[|j]]; [cbn; lra|cbn; lra|lia].
Qed.
Example pair_small : Forall (Forall natural) (pooled pair) /\ INR (length (pooled pair)) < 2 ^ 8
  /\ forall j, (j < 2)%nat -> sum (column j (pooled pair)) < 2 ^ 8.
Proof.
  split; [|split].
  - unfold pair, pooled. cbn. repeat constructor; unfold natural;
      [exists 1%nat|exists 2%nat|exists 3%nat|exists 6%nat|exists 5%nat|exists 1%nat]; cbn; lra.
  - cbn. lra.
  - intros j J. unfold sum, column, pooled, pair. destruct j as [|[|j]]; [cbn; lra|cbn; lra|lia].
Qed.
Example bytes_many : exists arrs, shaped 1 arrs /\ 2 ^ 8 <= INR (length (pooled arrs)).
Proof.
  exists [Array 1 (repeat [7] 257)]. split.
  - constructor; [|constructor]. split; [reflexivity|]. apply Forall_forall. intros r I. apply repeat_spec in I. now subst.
  - replace (length _) with 257%nat by reflexivity. rewrite INR_IZR_INZ. cbn. lra.
Qed.
Example axes : reshaped 1 [4; 5; 6]%nat = Some [4; 6]%nat /\ reshaped (-2) [4; 5; 6]%nat = Some [4; 6]%nat
  /\ reshaped 2 [4; 5; 6]%nat = Some [4; 5]%nat /\ reshaped (-1) [4; 5; 6]%nat = None.
Proof. repeat split. Qed.
Example stream : Forall (shaped 2) [pair; swapped] /\ length (seen [pair; swapped]) = 6%nat.
Proof. split; [|reflexivity]. repeat constructor. Qed.
(** The default parameters of MpiAdam, with three processes and two weights. *)
Definition default : params := Params (9 / 10) (999 / 1000) (1 / 100000000) true.
Definition calls : list (list (list R) * list R) := [([[1; 2]; [3; 4]; [5; 9]], [1; 1; 1]); ([[0; 2]; [0; 4]; [1; 1]], [2; 2; 2])].
Example default_usual : usual default.
Proof. repeat split; cbn; lra. Qed.
Example calls_fit : fits 2 3 calls /\ same_rates calls.
Proof.
  split; [repeat constructor|]. constructor; [|constructor; [|constructor]]; cbn; intros x y; intuition congruence.
Qed.
Example calls_run : exists a, run default 2 calls (construct (repeat [7; 8] 3)) = Some a /\ agree a.
Proof. destruct (adam_together default 2 3 [7; 8] calls) as (a & E & A & _); [apply calls_fit|apply calls_fit|]. now exists a. Qed.
Example joined_mean : joined default [[1; 2]; [3; 4]; [5; 9]] 1 = 5.
Proof. unfold joined, average, sum, column. cbn. lra. Qed.
