From Coq Require Import List Arith ZArith QArith Bool Lia Lqa Qfield.
From Verif Require Import Base BaseFacts Sched_Model Sched_Spec.
Import ListNotations.
Open Scope Q_scope.

Lemma qmin_spec a b : (a <= b /\ qmin a b = a) \/ (b < a /\ qmin a b = b).
Proof. unfold qmin. destruct (Qle_bool a b) eqn:E; qprop; auto. Qed.

Lemma nat_Q_pos n : (1 <= n)%nat -> 0 < inject_Z (Z.of_nat n).
Proof. intros. change 0 with (inject_Z 0). rewrite <- Zlt_Qlt. lia. Qed.
Lemma nat_Q_nonneg n : 0 <= inject_Z (Z.of_nat n).
Proof. change 0 with (inject_Z 0). rewrite <- Zle_Qle. lia. Qed.
Lemma nat_Q_le m n : (m <= n)%nat -> inject_Z (Z.of_nat m) <= inject_Z (Z.of_nat n).
Proof. intros. rewrite <- Zle_Qle. lia. Qed.

Lemma Qdiv_le_mono a b c : 0 < c -> a <= b -> a / c <= b / c.
Proof.
  intros Hc H. unfold Qdiv. apply Qmult_le_compat_r; auto. apply Qlt_le_weak, Qinv_lt_0_compat, Hc.
Qed.

Lemma interp_between l r a : 0 <= a -> a <= 1 -> between l r (linear_interpolation l r a).
Proof.
  intros H0 H1. unfold between, linear_interpolation.
  destruct (Qlt_le_dec l r); [left|right]; split; nra.
Qed.

Lemma linear_spec T f i : (1 <= T)%nat ->
  exists v : nat -> Q, (forall t, linear_value T f i t = Some (v t)) /\
    v 0%nat == i /\ (forall t, (T <= t)%nat -> v t == f) /\
    (forall t, (t <= T)%nat ->
        v t == i + (inject_Z (Z.of_nat t) / inject_Z (Z.of_nat T)) * (f - i)) /\
    (forall t, between i f (v t)) /\
    (i <= f -> forall s t, (s <= t)%nat -> v s <= v t) /\
    (f <= i -> forall s t, (s <= t)%nat -> v t <= v s).
Proof.
  intros HT. pose proof (nat_Q_pos T HT) as HTp.
  set (fr := fun t => qmin (inject_Z (Z.of_nat t) / inject_Z (Z.of_nat T)) 1).
  exists (fun t => i + fr t * (f - i)).
  assert (H0 : forall t, 0 <= fr t <= 1).
  { intros t. unfold fr. pose proof (nat_Q_nonneg t).
    assert (0 <= inject_Z (Z.of_nat t) / inject_Z (Z.of_nat T)).
    { apply Qle_shift_div_l; lra. }
    destruct (qmin_spec (inject_Z (Z.of_nat t) / inject_Z (Z.of_nat T)) 1) as [[? ->]|[? ->]]; lra. }
  assert (Hm : forall s t, (s <= t)%nat -> fr s <= fr t).
  { intros s t Hst. unfold fr.
    pose proof (Qdiv_le_mono _ _ _ HTp (nat_Q_le s t Hst)).
    destruct (qmin_spec (inject_Z (Z.of_nat t) / inject_Z (Z.of_nat T)) 1) as [[? ->]|[? ->]];
    destruct (qmin_spec (inject_Z (Z.of_nat s) / inject_Z (Z.of_nat T)) 1) as [[? ->]|[? ->]]; lra. }
  assert (Hfull : forall t, (T <= t)%nat -> fr t == 1).
  { intros t Ht. unfold fr.
    assert (1 <= inject_Z (Z.of_nat t) / inject_Z (Z.of_nat T)).
    { apply Qle_shift_div_l; auto. rewrite Qmult_1_l. now apply nat_Q_le. }
    destruct (qmin_spec (inject_Z (Z.of_nat t) / inject_Z (Z.of_nat T)) 1) as [[? ->]|[? ->]]; lra. }
  assert (Hpart : forall t, (t <= T)%nat -> fr t == inject_Z (Z.of_nat t) / inject_Z (Z.of_nat T)).
  { intros t Ht. unfold fr.
    assert (inject_Z (Z.of_nat t) / inject_Z (Z.of_nat T) <= 1).
    { apply Qle_shift_div_r; auto. rewrite Qmult_1_l. now apply nat_Q_le. }
    destruct (qmin_spec (inject_Z (Z.of_nat t) / inject_Z (Z.of_nat T)) 1) as [[? ->]|[? ->]]; lra. }
  repeat apply conj.
  - intros t. unfold linear_value. destruct (Nat.eqb_spec T 0); [lia|]. reflexivity.
  - rewrite (Hpart 0%nat) by lia. change (inject_Z (Z.of_nat 0)) with 0. field. lra.
  - intros t Ht. rewrite (Hfull t Ht). ring.
  - intros t Ht. now rewrite (Hpart t Ht).
  - intros t. apply interp_between; apply H0.
  - intros Hif s t Hst. pose proof (Hm s t Hst). nra.
  - intros Hif s t Hst. pose proof (Hm s t Hst). nra.
Qed.

Lemma linear_zero f i t : linear_value 0 f i t = None.
Proof. reflexivity. Qed.

Lemma sorted_le eps : sorted_times eps = true -> forall i j a b va vb, (i <= j)%nat ->
  nth_error eps i = Some (a, va) -> nth_error eps j = Some (b, vb) -> a <= b.
Proof.
  induction eps as [|[a0 v0] eps IH]; intros H i j a b va vb Hij Hi Hj.
  - destruct i; discriminate.
  - assert (Hs : sorted_times eps = true).
    { destruct eps as [|[a1 v1] eps]; auto. simpl in H. apply andb_true_iff in H. tauto. }
    destruct j as [|j].
    + destruct i; [|lia]. simpl in *. injection Hi as -> ->. injection Hj as -> ->. lra.
    + destruct i as [|i].
      * simpl in Hi. injection Hi as -> ->. destruct eps as [|[a1 v1] eps]; [destruct j; discriminate|].
        simpl in H. apply andb_true_iff in H. destruct H as [H _]. qprop.
        assert (a1 <= b); [|lra]. eapply (IH Hs 0%nat j); eauto. lia. reflexivity.
      * eapply (IH Hs i j); eauto. lia.
Qed.

Lemma piece_hit eps : sorted_times eps = true -> forall i step lt l rt r,
  nth_error eps i = Some (lt, l) -> nth_error eps (S i) = Some (rt, r) ->
  lt <= step -> step < rt ->
  piece eps step = Some (linear_interpolation l r ((step - lt) / (rt - lt))).
Proof.
  induction eps as [|[a0 v0] eps IH]; intros H i step lt l rt r Hi Hj Hl Hr.
  - destruct i; discriminate.
  - destruct eps as [|[a1 v1] eps]; [destruct i as [|[|]]; discriminate|].
    assert (Hs : sorted_times ((a1, v1) :: eps) = true).
    { simpl in H. apply andb_true_iff in H. tauto. }
    destruct i as [|i].
    + simpl in Hi, Hj. injection Hi as -> ->. injection Hj as -> ->.
      cbn [piece]. rewrite (proj2 (Qle_bool_iff lt step) Hl), (proj2 (Qltb_lt step rt) Hr). reflexivity.
    + cbn [piece].
      assert (a1 <= lt).
      { eapply (sorted_le _ Hs 0%nat i); eauto. lia. reflexivity. }
      assert (E : Qltb step a1 = false) by (apply Qltb_false; lra).
      rewrite E, andb_false_r. apply (IH Hs i); auto.
Qed.

Lemma piece_miss eps : sorted_times eps = true -> forall step,
  (forall t v, nth_error eps 0 = Some (t, v) -> step < t) \/
  (forall t v, nth_error eps (length eps - 1) = Some (t, v) -> t <= step) ->
  piece eps step = None.
Proof.
  induction eps as [|[a0 v0] eps IH]; intros H step Hout; auto.
  destruct eps as [|[a1 v1] eps]; auto.
  assert (Hs : sorted_times ((a1, v1) :: eps) = true).
  { simpl in H. apply andb_true_iff in H. tauto. }
  assert (H01 : a0 <= a1). { simpl in H. apply andb_true_iff in H. destruct H. now qprop. }
  cbn [piece].
  destruct Hout as [Hout|Hout].
  - specialize (Hout a0 v0 eq_refl).
    assert (E : Qle_bool a0 step = false) by (apply Qle_bool_false; auto). rewrite E. simpl.
    apply IH; auto. left. intros t v Ht. injection Ht as <- <-. lra.
  - assert (Hlast : a1 <= step).
    { assert (exists t v, nth_error ((a0,v0) :: (a1, v1) :: eps) (length ((a0,v0) :: (a1,v1)::eps) - 1) = Some (t, v)) as (t & v & Ht).
      { destruct (nth_error ((a0,v0) :: (a1, v1) :: eps) (length ((a0,v0) :: (a1,v1)::eps) - 1)) as [[t v]|] eqn:E; eauto.
        apply nth_error_None in E. simpl in E. lia. }
      specialize (Hout t v Ht). assert (a1 <= t); [|lra].
      eapply (sorted_le _ H 1%nat (length ((a0,v0) :: (a1,v1)::eps) - 1)); eauto. simpl. lia. reflexivity. }
    assert (E : Qltb step a1 = false) by (apply Qltb_false; auto). rewrite E, andb_false_r.
    apply IH; auto. right. intros t v Ht. apply (Hout t v).
    simpl length in *. replace (S (S (length eps)) - 1)%nat with (S (S (length eps) - 1)) by lia. exact Ht.
Qed.

Lemma piecewise_spec eps out p : new_piecewise eps out = Some p ->
  (forall i lt l rt r step,
     nth_error eps i = Some (lt, l) -> nth_error eps (S i) = Some (rt, r) -> lt <= step < rt ->
     exists v, piecewise_value p step = Some v /\ v == l + (step - lt) / (rt - lt) * (r - l) /\
       between l r v /\ (step == lt -> v == l)) /\
  (forall step t v, nth_error eps 0 = Some (t, v) -> step < t -> piecewise_value p step = out) /\
  (forall step t v, nth_error eps (length eps - 1) = Some (t, v) -> t <= step ->
     piecewise_value p step = out).
Proof.
  unfold new_piecewise. destruct (sorted_times eps) eqn:Es; [|discriminate].
  intros H. injection H as <-. unfold piecewise_value. cbn [fst snd]. repeat apply conj.
  - intros i lt l rt r step Hi Hj [Hl Hr].
    rewrite (piece_hit eps Es i step lt l rt r Hi Hj Hl Hr).
    eexists. split; [reflexivity|]. split; [unfold linear_interpolation; ring|]. split.
    + apply interp_between.
      * apply Qle_shift_div_l; lra.
      * apply Qle_shift_div_r; lra.
    + intros E. unfold linear_interpolation. rewrite E. field. lra.
  - intros step t v Ht Hlt. rewrite (piece_miss eps Es); auto. left. intros t' v' Ht'.
    rewrite Ht in Ht'. injection Ht' as <- <-. auto.
  - intros step t v Ht Hlt. rewrite (piece_miss eps Es); auto. right. intros t' v' Ht'.
    rewrite Ht in Ht'. injection Ht' as <- <-. auto.
Qed.

(** *** legacy curves *)
Lemma curves_unit : forall c, In c [constant; linear_schedule; middle_drop; double_linear_con; double_middle_drop] ->
  forall p, 0 <= p -> p <= 1 -> 0 <= c p <= 1.
Proof.
  intros c Hc p H0 H1. simpl in Hc.
  destruct Hc as [<-|[<-|[<-|[<-|[<-|[]]]]]];
    unfold constant, linear_schedule, middle_drop, double_linear_con, double_middle_drop; cbv zeta;
    repeat match goal with |- context [if Qltb ?a ?b then _ else _] => destruct (Qltb a b) eqn:?; qprop end; lra.
Qed.

Lemma curves_mono : forall c, In c [constant; linear_schedule; middle_drop; double_linear_con] ->
  nonincreasing_on_unit c.
Proof.
  intros c Hc p q H0 H1 H2. simpl in Hc.
  destruct Hc as [<-|[<-|[<-|[<-|[]]]]];
    unfold constant, linear_schedule, middle_drop, double_linear_con; cbv zeta;
    repeat match goal with |- context [if Qltb ?a ?b then _ else _] => destruct (Qltb a b) eqn:?; qprop end; lra.
Qed.

Lemma double_middle_drop_not_mono : ~ nonincreasing_on_unit double_middle_drop.
Proof.
  intros H. specialize (H (1#2) (4#5) ltac:(lra) ltac:(lra) ltac:(lra)). vm_compute in H. apply H. reflexivity.
Qed.

Lemma sched_run_spec n : forall s, (1 <= svals s)%nat ->
  sched_run s n = Some (map (fun k => sinit s * curve s (inject_Z (Z.of_nat (sstep s + k)) / inject_Z (Z.of_nat (svals s)))) (seq 0 n)).
Proof.
  induction n as [|n IH]; intros s Hv; auto.
  cbn [sched_run]. unfold sched_value, value_steps. destruct (Nat.eqb_spec (svals s) 0); [lia|].
  rewrite IH by auto. cbn [sstep sinit svals curve seq map]. do 2 f_equal.
  - now rewrite Nat.add_0_r.
  - rewrite <- seq_shift, map_map. apply map_ext. intros k.
    replace (S (sstep s) + k)%nat with (sstep s + S k)%nat by lia. reflexivity.
Qed.

Lemma linear_sched_negative init n k : 0 < init -> (1 <= n)%nat -> (n < k)%nat ->
  exists v, value_steps (new_scheduler init n linear_schedule) k = Some v /\ v < 0.
Proof.
  intros Hi Hn Hk. unfold value_steps, new_scheduler. cbn [svals sinit curve].
  destruct (Nat.eqb_spec n 0); [lia|]. eexists. split; [reflexivity|].
  unfold linear_schedule. pose proof (nat_Q_pos n Hn).
  assert (1 < inject_Z (Z.of_nat k) / inject_Z (Z.of_nat n)).
  { apply Qlt_shift_div_l; auto. rewrite Qmult_1_l. rewrite <- Zlt_Qlt. lia. }
  nra.
Qed.
