(** Concrete instances for C81 and C82. *)
From Coq Require Import List Bool Arith Reals Lia Lra Psatz.
From Verif Require Import BM_Model BM_Spec BM_Proofs BM_Final BM_Schwefel CE_Model CE_Spec CE_Proofs CE_Final CE_Cec.
Import ListNotations.
Open Scope R_scope.

Definition ident (n : nat) : list (list R) := map (fun i => map (fun j => if Nat.eqb i j then 1 else 0) (seq 0 n)) (seq 0 n).
Definition T0 : tables := {| rot := fun nx _ => ident nx; shift := fun _ => repeat (1 / 10) 100; perm := fun nx _ => seq 0 nx;
  rot_cf := fun nx _ => repeat (ident nx) 10; shift_cf := fun _ => map (fun j => repeat (INR j) 100) (seq 0 10); perm_cf := fun nx _ => repeat (seq 0 nx) 10 |}.
Lemma ident_sq n : square n (ident n).
Proof. unfold square, ident. rewrite map_length, seq_length. split; [reflexivity|]. apply Forall_forall. intros r Hr. apply in_map_iff in Hr. destruct Hr as (i & <- & _). rewrite map_length, seq_length. reflexivity. Qed.
Lemma seq_idx n : indices n (seq 0 n). Proof. split; [rewrite seq_length; lia|]. apply Forall_forall. intros i Hi. apply in_seq in Hi. lia. Qed.
Lemma Forall_rep {A} (P : A -> Prop) a n : P a -> Forall P (repeat a n). Proof. intros H. induction n; cbn; auto. Qed.
Example T0_ok : well_formed T0.
Proof.
  unfold well_formed, T0. cbn [rot shift perm rot_cf shift_cf perm_cf]. repeat split; intros.
  - apply ident_sq.
  - apply ident_sq.
  - rewrite repeat_length. lia.
  - apply seq_idx.
  - apply seq_idx.
  - rewrite repeat_length. lia.
  - apply Forall_rep, ident_sq.
  - rewrite map_length, seq_length. lia.
  - apply Forall_forall. intros s Hs. apply in_map_iff in Hs. destruct Hs as (j & <- & _). rewrite repeat_length. lia.
  - rewrite repeat_length. lia.
  - apply Forall_rep, seq_idx.
Qed.
(** Every function has a dimension it accepts and one it rejects. *)
Example demo_dims : forall k, (1 <= k <= 30)%nat -> In 10%nat (cec17_dims k) /\ ~ In 3%nat (cec17_dims k).
Proof. intros k _. unfold cec17_dims. destruct (_ || _); cbn; split; auto; lia. Qed.
Example demo_dims2 : ~ In 2%nat (cec17_dims 11) /\ ~ In 20%nat (cec17_dims 30) /\ In 2%nat (cec17_dims 21).
Proof. vm_compute. intuition discriminate. Qed.
(** A point that is not the optimum has a value too. *)
Example demo_value : exists v x', cec17 T0 13 (repeat 1 10) = Some (Fin v, x') /\ 1300 <= v.
Proof.
  destruct (cec17_total T0 13 (repeat 1 10) T0_ok) as (v & x' & H); [lia|rewrite repeat_length; apply demo_dims; lia|]. exists v, x'. split; [exact H|]. pose proof (cec17_low T0 13 _ _ _ ltac:(lia) H) as K. replace (100 * INR 13) with 1300 in K by (cbn; lra). exact K.
Qed.
Example demo_opt : exists k nx, (1 <= k <= 20)%nat /\ k <> 9%nat /\ has_schwefel k = false /\ In nx (cec17_dims k) /\ cec17 T0 k (optimum T0 k nx) = Some (Fin (100 * INR k), optimum T0 k nx).
Proof. exists 19%nat, 30%nat. repeat split; try lia; try (vm_compute; tauto). apply cec17_optimum; [apply T0_ok|lia|lia|reflexivity|vm_compute; tauto]. Qed.
(** f8 leaves the bounds for the shift 1/10. *)
Example demo_leaves : exists x v x', length x = 10%nat /\ inside x /\ cec17 T0 8 x = Some (v, x') /\ ~ inside x'.
Proof.
  apply (cec17_leaves T0 10 3 (1 / 10) T0_ok); [cbn; tauto|unfold optimum; cbn [T0 shift]; rewrite firstn_rep; reflexivity|lra|]. intros z E. assert (H1 : IZR 0 < IZR z) by lra. assert (H2 : IZR z < IZR 1) by lra. apply lt_IZR in H1, H2. lia.
Qed.
(** Both cases of a composition occur: one of the shifts, and another point. *)
Example demo_comp : cec17 T0 21 (repeat 2 10) = Some (NaN, repeat 2 10) /\ exists v, cec17 T0 21 (repeat (1 / 2) 10) = Some (Fin v, repeat (1 / 2) 10) /\ 2100 < v.
Proof.
  assert (Q : forall i, (i < 3)%nat -> comp_shift T0 21 i 10 = repeat (INR i) 10). { intros i Hi. unfold comp_shift. destruct i as [|[|[|i]]]; [| | |lia]; cbn [T0 shift_cf map seq nth]; rewrite firstn_rep; reflexivity. }
  split.
  - destruct (cec17_composition T0 21 (repeat 2 10) T0_ok) as (v & A & B & _); [lia|rewrite repeat_length; apply demo_dims; lia|]. rewrite A. rewrite B; [reflexivity|]. exists 2%nat. split; [vm_compute; lia|]. rewrite repeat_length, Q by lia. reflexivity.
  - destruct (cec17_composition T0 21 (repeat (1 / 2) 10) T0_ok) as (v & A & _ & B); [lia|rewrite repeat_length; apply demo_dims; lia|]. destruct B as (r & -> & R1). { intros i Hi E. change (comp_count 21) with 3%nat in Hi. rewrite repeat_length, Q in E by lia. cbn [repeat] in E. injection E as E. destruct i as [|[|[|i]]]; cbn in E; try lia; lra. }
    exists r. split; [exact A|]. replace (100 * INR 21) with 2100 in R1 by (cbn; lra). exact R1.
Qed.
(** CEC'2008: data of a thousand entries, and a point that is not the minimum. *)
Example demo_08 : c08_fit 1 (repeat 1 1000) [2; 3] = Some (-445).
Proof.
  unfold c08_fit. cbn [length]. change (1000 <? 2)%nat with false. cbv iota. rewrite firstn_rep. change (Nat.min 2 1000) with 2%nat. cbn. f_equal. unfold sq. lra.
Qed.
Example demo_08_size : length (repeat 1 1000) = 1000%nat. Proof. apply repeat_length. Qed.
