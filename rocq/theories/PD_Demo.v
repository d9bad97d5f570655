(** Cases that meet the hypotheses of the theorems about distributions. *)
From Coq Require Import List Arith ZArith Reals Lra Lia.
From Verif Require Import PD_Model PD_Spec PD_Proofs PD_Race PD_Multi PD_Bern PD_Gauss.
Import ListNotations.
Open Scope R_scope.

(** Three actions with probabilities 1/6, 1/3 and 1/2. *)
Definition demo_l : list R := [ln 1; ln 2; ln 3].
Example demo_prob : demo_l <> [] /\ prob demo_l 0 = 1 / 6 /\ prob demo_l 1 = 1 / 3 /\ prob demo_l 2 = 1 / 2.
Proof.
  split; [discriminate|]. unfold prob, demo_l. cbn [map total fold_right nth]. rewrite !exp_ln by lra. repeat split; field.
Qed.
Example demo_mode : cat_mode demo_l = Some 2%nat.
Proof.
  apply cat_mode_iff. unfold first_max, demo_l. cbn [length]. assert (A : ln 1 < ln 2) by (apply ln_increasing; lra). assert (B : ln 2 < ln 3) by (apply ln_increasing; lra).
  split; [lia|]. split; intros j Hj; destruct j as [|[|[|j]]]; cbn [nth]; try lia; try lra; apply rlt_yes; lra.
Qed.
(** Uniform numbers for which action 0, the least likely one, wins. *)
Example demo_sample : length [1 / 2; 1 / 5; 1 / 9] = length demo_l /\ Forall (fun x => 0 < x < 1) [1 / 2; 1 / 5; 1 / 9] /\ cat_sample demo_l [1 / 2; 1 / 5; 1 / 9] = Some 0%nat.
Proof.
  assert (F : Forall (fun x => 0 < x < 1) [1 / 2; 1 / 5; 1 / 9]) by (repeat apply Forall_cons; try apply Forall_nil; lra).
  destruct demo_prob as [_ [P0 [P1 P2]]].
  split; [reflexivity|]. split; [exact F|]. apply cat_sample_iff; [reflexivity|exact F|cbn; lia|]. split; [intros j Hj; lia|].
  intros j Hj. cbn in Hj. destruct j as [|[|[|j]]]; try lia; cbn [nth].
  - rewrite P0, P1. replace (1 / 3 / (1 / 6)) with (INR 2) by (cbn; field). rewrite Rpower_pow by lra. cbn. lra.
  - rewrite P0, P2. replace (1 / 2 / (1 / 6)) with (INR 3) by (cbn; field). rewrite Rpower_pow by lra. cbn. lra.
Qed.
Example demo_outside : ~ (0 <= 3 < Z.of_nat (length demo_l))%Z /\ ~ (0 <= -1 < Z.of_nat (length demo_l))%Z.
Proof. cbn. lia. Qed.
(** A two-dimensional Gaussian, and four points with its means and standard deviations. *)
Example demo_moments : has_moments [(1 / 4, [3; 7]); (1 / 4, [3; 3]); (1 / 4, [1; 7]); (1 / 4, [1; 3])] [2; 5] (map exp [ln 1; ln 2]).
Proof.
  unfold has_moments, average. cbn [map total fold_right fst snd]. rewrite !exp_ln by lra. split; [lra|]. split.
  - intros w x [E|[E|[E|[E|[]]]]]; injection E as <- <-; reflexivity.
  - intros j Hj. cbn in Hj. destruct j as [|[|j]]; try lia; cbn [nth]; split; lra.
Qed.
(** A MultiDiscrete space with 2 x 3 actions. *)
Example demo_parts : parts [2; 3]%nat [0; 1; 5; 6; 7] [[0; 1]; [5; 6; 7]] /\ Forall (fun n => (0 < n)%nat) [2; 3]%nat /\ tuples [2; 3]%nat = [[0; 0]; [0; 1]; [0; 2]; [1; 0]; [1; 1]; [1; 2]]%nat.
Proof. split; [split; reflexivity|]. split; [repeat constructor|reflexivity]. Qed.
Example demo_uniforms : Forall2 (fun u l => length u = length l) [[1 / 2; 1 / 3]; [1 / 2; 0; 1 / 4]] [[0; 1]; [5; 6; 7]].
Proof. repeat constructor. Qed.
(** Bits. *)
Example demo_bits : bits (length [0; ln 3]) = [[0; 0]; [0; 1]; [1; 0]; [1; 1]]%nat /\ bits_prob [0; ln 3] [0; 1]%nat = 3 / 8 /\ bern_mode [0; ln 3] = [0; 1]%nat.
Proof.
  split; [reflexivity|]. split.
  - unfold bits_prob, logistic. cbn [combine map product fold_right fst snd bit_prob]. rewrite exp_0, exp_ln by lra. field.
  - unfold bern_mode. cbn [map]. rewrite !logistic_sigmoid. unfold logistic. rewrite exp_0, exp_ln by lra. destruct (Rlt_dec (1 / 2) (1 / (1 + 1))); [lra|]. destruct (Rlt_dec (1 / 2) (3 / (1 + 3))); [reflexivity|lra].
Qed.
