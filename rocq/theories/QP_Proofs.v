(** Proofs about power splits. *)
From Coq Require Import List Arith Reals Lra Lia Psatz.
From Verif Require Import QP_Model QP_Spec.
Import ListNotations.
Open Scope R_scope.

Lemma divide_num a b : b <> 0 -> divide a b = Num (a / b).
Proof. intros H. unfold divide. now destruct (Req_EM_T b 0). Qed.
Lemma total_scale k l : total (map (fun a => a * k) l) = total l * k.
Proof. unfold total. induction l as [|x l IH]; simpl; [lra|rewrite IH; lra]. Qed.
Lemma total_nonneg l : Forall (fun a => 0 <= a) l -> 0 <= total l.
Proof. unfold total. induction 1; simpl; lra. Qed.
Lemma total_ge l a : Forall (fun a => 0 <= a) l -> In a l -> a <= total l.
Proof.
  induction 1 as [|x l P F IH]; [intros []|]. pose proof (total_nonneg l F). unfold total in *. simpl. intros [->|H1]; [lra|]. specialize (IH H1). lra.
Qed.
Theorem split_sum predict pert : total (predict pert) <> 0 -> exists v, finite (fst (eval predict pert)) v /\ length v = length (predict pert) /\ total v = 1 /\
  forall i a, nth_error (predict pert) i = Some a -> exists r, nth_error v i = Some r /\ r * total (predict pert) = a.
Proof.
  intros H. set (u := predict pert) in *. exists (map (fun a => a * / total u) u). split; [|split; [apply map_length|split]].
  - unfold finite, eval. cbn [fst]. fold u. rewrite map_map. apply map_ext. intros a. now apply divide_num.
  - rewrite total_scale. now apply Rinv_r.
  - intros i a E. exists (a * / total u). split; [rewrite nth_error_map, E; reflexivity|]. now field.
Qed.
Theorem split_zero predict pert : total (predict pert) = 0 -> forall x, In x (fst (eval predict pert)) -> ~ is_number x.
Proof.
  intros H x. unfold eval. cbn [fst]. rewrite H. intros Hx. apply in_map_iff in Hx as (a & <- & _). unfold divide. destruct (Req_EM_T 0 0) as [_|N]; [|now elim N].
  destruct (Req_EM_T a 0); [|destruct (Rlt_dec 0 a)]; intros [z E]; discriminate.
Qed.
Theorem split_shares predict pert : Forall (fun a => 0 <= a) (predict pert) -> Exists (fun a => 0 < a) (predict pert) ->
  exists v, finite (fst (eval predict pert)) v /\ total v = 1 /\ Forall (fun r => 0 <= r <= 1) v.
Proof.
  intros F E. assert (P : 0 < total (predict pert)).
  { apply Exists_exists in E as (a & Ia & Pa). pose proof (total_ge _ a F Ia). lra. }
  destruct (split_sum predict pert ltac:(lra)) as (v & Hv & L & S & N). exists v. split; [exact Hv|]. split; [exact S|].
  apply Forall_forall. intros r Ir. apply In_nth_error in Ir as [i Hi].
  destruct (nth_error (predict pert) i) as [a|] eqn:Ea.
  - destruct (N i a Ea) as (r' & Hr & Q). rewrite Hi in Hr. injection Hr as <-. pose proof (nth_error_In _ _ Ea) as Ia.
    pose proof (total_ge _ a F Ia). rewrite Forall_forall in F. specialize (F a Ia). simpl in F. nra.
  - apply nth_error_None in Ea. assert (i < length v)%nat by (apply nth_error_Some; congruence). lia.
Qed.
Theorem split_scale predict predict' pert pert' k : k <> 0 -> predict' pert' = map (fun a => a * k) (predict pert) -> total (predict pert) <> 0 ->
  fst (eval predict' pert') = fst (eval predict pert).
Proof.
  intros Hk E H. unfold eval. cbn [fst]. rewrite E, total_scale, map_map. apply map_ext. intros a. rewrite !divide_num by (try apply Rmult_integral_contrapositive_currified; assumption).
  f_equal. now field.
Qed.
Theorem angles_kept predict pert : snd (eval predict pert) = pert.
Proof. reflexivity. Qed.
(** The objective for four quadrants. *)
Lemma dev_four a b c d : deviation [Num a; Num b; Num c; Num d] = Some (Rabs (a - 1 / 4) + (Rabs (b - 1 / 4) + (Rabs (c - 1 / 4) + (Rabs (d - 1 / 4) + 0)))).
Proof. reflexivity. Qed.
Theorem deviation_range predict pert : length (predict pert) = 4%nat -> Forall (fun a => 0 <= a) (predict pert) -> Exists (fun a => 0 < a) (predict pert) ->
  exists d, deviation (fst (eval predict pert)) = Some d /\ 0 <= d <= 3 / 2 /\ (d = 0 <-> forall a b, In a (predict pert) -> In b (predict pert) -> a = b).
Proof.
  intros L F E. assert (P : 0 < total (predict pert)).
  { apply Exists_exists in E as (a & Ia & Pa). pose proof (total_ge _ a F Ia). lra. }
  set (u := predict pert) in *. unfold eval. cbn [fst]. fold u. destruct u as [|a [|b [|c [|d [|e u]]]]]; try discriminate.
  set (T := total [a; b; c; d]) in *. cbn [map]. rewrite !divide_num by lra. rewrite dev_four. eexists. split; [reflexivity|].
  inversion F as [|? ? A F1]; subst. inversion F1 as [|? ? B F2]; subst. inversion F2 as [|? ? C F3]; subst. inversion F3 as [|? ? D _]; subst.
  assert (ET : T = a + (b + (c + (d + 0)))) by reflexivity.
  assert (Pa : 0 <= a / T) by (apply Rmult_le_pos; [exact A|left; now apply Rinv_0_lt_compat]). assert (Pb : 0 <= b / T) by (apply Rmult_le_pos; [exact B|left; now apply Rinv_0_lt_compat]).
  assert (Pc : 0 <= c / T) by (apply Rmult_le_pos; [exact C|left; now apply Rinv_0_lt_compat]). assert (Pd : 0 <= d / T) by (apply Rmult_le_pos; [exact D|left; now apply Rinv_0_lt_compat]).
  assert (S : a / T + b / T + c / T + d / T = 1) by (rewrite ET in *; field; lra).
  assert (Ea : a = a / T * T) by (field; lra). assert (Eb : b = b / T * T) by (field; lra). assert (Ec : c = c / T * T) by (field; lra). assert (Ed : d = d / T * T) by (field; lra).
  set (p := a / T) in *. set (q := b / T) in *. set (r := c / T) in *. set (s := d / T) in *. clearbody p q r s.
  split.
  - unfold Rabs. repeat destruct (Rcase_abs _); lra.
  - split.
    + intros Z. pose proof (Rabs_pos (p - 1 / 4)). pose proof (Rabs_pos (q - 1 / 4)). pose proof (Rabs_pos (r - 1 / 4)). pose proof (Rabs_pos (s - 1 / 4)).
      assert (Q : forall t, Rabs (t - 1 / 4) = 0 -> t = 1 / 4) by (intros t Ht; unfold Rabs in Ht; destruct (Rcase_abs _); lra).
      assert (p = 1 / 4) by (apply Q; lra). assert (q = 1 / 4) by (apply Q; lra). assert (r = 1 / 4) by (apply Q; lra). assert (s = 1 / 4) by (apply Q; lra).
      assert (K : forall x, In x [a; b; c; d] -> x = 1 / 4 * T) by (intros x Hx; simpl in Hx; destruct Hx as [<-|[<-|[<-|[<-|[]]]]]; congruence).
      intros x y Hx Hy. rewrite (K x Hx), (K y Hy). reflexivity.
    + intros H. assert (a = b) by (apply H; simpl; auto). assert (a = c) by (apply H; simpl; auto). assert (a = d) by (apply H; simpl; auto).
      assert (p = q) by (apply (Rmult_eq_reg_r T); lra). assert (p = r) by (apply (Rmult_eq_reg_r T); lra). assert (p = s) by (apply (Rmult_eq_reg_r T); lra).
      assert (P4 : p = 1 / 4) by lra. assert (Q4 : q = 1 / 4) by lra. assert (R4 : r = 1 / 4) by lra. assert (S4 : s = 1 / 4) by lra. rewrite P4, Q4, R4, S4. replace (1 / 4 - 1 / 4) with 0 by lra. rewrite Rabs_R0. lra.
Qed.
