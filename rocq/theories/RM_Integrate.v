From Coq Require Import Reals List Lia Lra Sorted ZArith.
From Coquelicot Require Import Coquelicot.
From Verif Require Import RM_Model RM_Spec.
From Coq Require Import List.
Import ListNotations.
Open Scope R_scope.

Lemma ltb_true a b : ltb a b = true <-> a < b.
Proof. unfold ltb. destruct (Rlt_dec a b); split; auto; discriminate. Qed.
Lemma ltb_false a b : ltb a b = false <-> b <= a.
Proof. unfold ltb. destruct (Rlt_dec a b); split; intro H; try discriminate; try reflexivity; lra. Qed.

(** ** Pieces *)
Lemma line_affine p q t : fst p < fst q -> line p q t = snd p + (snd q - snd p) / (fst q - fst p) * (t - fst p).
Proof. intros H. unfold line. field. lra. Qed.
Definition power (sq : bool) (x : R) : R := if sq then x ^ 2 else x.
Definition block (sq : bool) := if sq then piece_sq else piece.
Lemma affine_int sq m y x a b : a < b -> is_RInt (fun t => power sq (y + m * (t - x))) a b (block sq a (y + m * (a - x)) b (y + m * (b - x))).
Proof.
  intros Hab. destruct sq; cbn [power block].
  - replace (piece_sq a (y + m * (a - x)) b (y + m * (b - x)))
      with (minus (m ^ 2 * b ^ 3 / 3 + m * (y - m * x) * b ^ 2 + (y - m * x) ^ 2 * b) (m ^ 2 * a ^ 3 / 3 + m * (y - m * x) * a ^ 2 + (y - m * x) ^ 2 * a)).
    + apply (is_RInt_derive (fun t => m ^ 2 * t ^ 3 / 3 + m * (y - m * x) * t ^ 2 + (y - m * x) ^ 2 * t)).
      * intros t _. auto_derive; [trivial|]. field.
      * intros t _. apply continuity_pt_filterlim. reg.
    + unfold minus, plus, opp; cbn. unfold piece_sq. replace ((y + m * (b - x) - (y + m * (a - x))) / (b - a)) with m by (field; lra). field.
  - replace (piece a (y + m * (a - x)) b (y + m * (b - x))) with (minus (y * b + m * (b - x) ^ 2 / 2) (y * a + m * (a - x) ^ 2 / 2)).
    + apply (is_RInt_derive (fun t => y * t + m * (t - x) ^ 2 / 2)).
      * intros t _. auto_derive; [trivial|]. field.
      * intros t _. apply continuity_pt_filterlim. reg.
    + unfold minus, plus, opp; cbn. unfold piece. field.
Qed.

(** ** The interpolant *)
Lemma interpolate_hd p r t : t <= fst p -> increasing (p :: r) -> (forall q s, r = q :: s -> interpolate (p :: r) t = line p q t) /\ interpolate (p :: r) (fst p) = snd p.
Proof.
  intros Ht Hs. destruct r as [|q s]; [split; [discriminate|reflexivity]|].
  apply StronglySorted_inv in Hs as [_ Hf]. inversion Hf as [|? ? Hpq _]. subst.
  split.
  - intros q0 s0 E. inversion E. subst. cbn. destruct (Rle_dec t (fst q0)); [reflexivity|lra].
  - cbn. destruct (Rle_dec (fst p) (fst q)); [|lra]. unfold line. replace (fst p - fst p) with 0 by ring. unfold Rdiv. ring.
Qed.
Lemma interpolate_at l : forall p r, increasing (l ++ p :: r) -> interpolate (l ++ p :: r) (fst p) = snd p.
Proof.
  induction l as [|a l IH]; intros p r Hs.
  - apply (interpolate_hd p r (fst p) (Rle_refl _) Hs).
  - cbn [app] in *. pose proof Hs as Hs'. apply StronglySorted_inv in Hs as [Hs Hf].
    destruct l as [|b l]; cbn [app] in *.
    + inversion Hf as [|? ? Hap _]. subst. cbn. destruct (Rle_dec (fst p) (fst p)); [|lra]. unfold line. field. lra.
    + cbn [interpolate]. destruct (Rle_dec (fst p) (fst b)) as [Hle|Hle].
      * apply StronglySorted_inv in Hs as [_ Hb]. rewrite Forall_app in Hb. destruct Hb as [_ Hb]. inversion Hb. subst. lra.
      * apply (IH p r Hs).
Qed.
Lemma interpolate_cell l : forall p q r t, increasing (l ++ p :: q :: r) -> fst p <= t <= fst q -> interpolate (l ++ p :: q :: r) t = line p q t.
Proof.
  induction l as [|a l IH]; intros p q r t Hs Ht.
  - cbn. destruct (Rle_dec t (fst q)); [reflexivity|lra].
  - cbn [app] in *. pose proof Hs as Hs'. apply StronglySorted_inv in Hs as [Hs Hf].
    assert (Hpq : fst p < fst q). { clear -Hs. induction l as [|b l IHl]; cbn in Hs; apply StronglySorted_inv in Hs as [H1 H2]; [now inversion H2|auto]. }
    destruct l as [|b l]; cbn [app] in *.
    + cbn [interpolate]. inversion Hf as [|? ? Hap _]. subst. destruct (Rle_dec t (fst p)) as [Hle|Hle].
      * assert (t = fst p) as -> by lra. unfold line at 1. unfold line. field. split; lra.
      * destruct (Rle_dec t (fst q)); [reflexivity|lra].
    + cbn [interpolate]. destruct (Rle_dec t (fst b)) as [Hle|Hle]; [|apply (IH p q r t Hs Ht)].
      apply StronglySorted_inv in Hs as [_ Hb]. rewrite Forall_app in Hb. destruct Hb as [_ Hb]. inversion Hb. subst. lra.
Qed.
Lemma interpolate_follows ks : increasing ks -> follows (interpolate ks) ks.
Proof.
  intros Hs. split.
  - intros p Hp. apply in_split in Hp as (l & r & ->). now apply interpolate_at.
  - intros l p q r -> t Ht. rewrite (interpolate_cell l p q r t Hs Ht). apply line_affine.
    clear -Hs. induction l as [|b l IHl]; cbn in Hs; apply StronglySorted_inv in Hs as [H1 H2]; [now inversion H2|auto].
Qed.
(** Continuity: glue with minimum and maximum. *)
Lemma continuous_Rmin (f : R -> R) c : (forall t, continuous f t) -> forall t, continuous (fun t => f (Rmin t c)) t.
Proof.
  intros Hf t. apply (continuous_comp (fun t => Rmin t c) f); [|apply Hf].
  apply (continuous_ext (fun t => (t + c - Rabs (t - c)) / 2)).
  - intros x. unfold Rmin. destruct (Rle_dec x c); [rewrite Rabs_left1 by lra|rewrite Rabs_right by lra]; lra.
  - apply continuity_pt_filterlim. reg.
Qed.
Lemma continuous_Rmax (f : R -> R) c : (forall t, continuous f t) -> forall t, continuous (fun t => f (Rmax t c)) t.
Proof.
  intros Hf t. apply (continuous_comp (fun t => Rmax t c) f); [|apply Hf].
  apply (continuous_ext (fun t => (t + c + Rabs (t - c)) / 2)).
  - intros x. unfold Rmax. destruct (Rle_dec x c); [rewrite Rabs_left1 by lra|rewrite Rabs_right by lra]; lra.
  - apply continuity_pt_filterlim. reg.
Qed.
Lemma interpolate_continuous ks : increasing ks -> forall t, continuous (interpolate ks) t.
Proof.
  induction ks as [|p ks IH]; intros Hs t; [apply continuous_const|].
  destruct ks as [|q r]; [apply continuous_const|].
  pose proof Hs as Hs'. apply StronglySorted_inv in Hs as [Hs Hf]. inversion Hf as [|? ? Hpq _]. subst.
  apply (continuous_ext (fun t => (line p q (Rmin t (fst q)) - snd q) + interpolate (q :: r) (Rmax t (fst q)))).
  - intros x. change (interpolate (p :: q :: r) x) with (if Rle_dec x (fst q) then line p q x else interpolate (q :: r) x). unfold Rmin, Rmax. destruct (Rle_dec x (fst q)) as [Hx|Hx]; match goal with |- ?a = ?b => change (@eq R a b) end.
    + pose proof (interpolate_at [] q r Hs) as E. cbn [app] in E. rewrite E. ring.
    + assert (line p q (fst q) = snd q) as -> by (unfold line; field; lra). ring.
  - apply (continuous_plus (V := R_NormedModule)).
    + apply (continuous_minus (V := R_NormedModule)); [|apply continuous_const].
      apply continuous_Rmin. intros s. unfold line, Rdiv. generalize (/ (fst q - fst p)). intros k. apply continuity_pt_filterlim. reg.
    + apply continuous_Rmax. now apply IH.
Qed.

(** ** The integrals *)
Lemma increasing_cell l p q r : increasing (l ++ p :: q :: r) -> fst p < fst q.
Proof. intros Hs. induction l as [|b l IHl]; cbn in Hs; apply StronglySorted_inv in Hs as [H1 H2]; [now inversion H2|auto]. Qed.
Lemma cell_int sq l p q r a b : increasing (l ++ p :: q :: r) -> fst p <= a -> a < b -> b <= fst q ->
  is_RInt (fun t => power sq (interpolate (l ++ p :: q :: r) t)) a b (block sq a (line p q a) b (line p q b)).
Proof.
  intros Hs Ha Hab Hb. pose proof (increasing_cell _ _ _ _ Hs) as Hpq.
  rewrite !line_affine by assumption.
  eapply is_RInt_ext; [|apply (affine_int sq _ (snd p) (fst p) a b Hab)].
  intros t [H1 H2]. rewrite Rmin_left in H1 by lra. rewrite Rmax_right in H2 by lra.
  cbn beta. f_equal. rewrite interpolate_cell by (assumption || lra). now rewrite line_affine.
Qed.
Lemma line_left p q : line p q (fst p) = snd p.
Proof. unfold line. unfold Rdiv. ring. Qed.
Lemma line_right p q : fst p < fst q -> line p q (fst q) = snd q.
Proof. intros. unfold line. field. lra. Qed.
Lemma last_default {A} (l : list A) : forall x d e, last (x :: l) d = last (x :: l) e.
Proof. induction l as [|y l IH]; intros x d e; [reflexivity|]. apply (IH y). Qed.
Lemma pieces_int sq inner : forall l p r, increasing (l ++ (p :: inner) ++ r) ->
  is_RInt (fun t => power sq (interpolate (l ++ (p :: inner) ++ r) t)) (fst p) (fst (last inner p)) (pieces (block sq) (p :: inner)).
Proof.
  induction inner as [|q inner IH]; intros l p r Hs.
  - cbn [pieces last]. apply (is_RInt_point (V := R_NormedModule)).
  - cbn [pieces]. fold (pieces (block sq) (q :: inner)).
    apply (is_RInt_Chasles (V := R_NormedModule) _ (fst p) (fst q)).
    + cbn [app] in *. pose proof (increasing_cell _ _ _ _ Hs) as Hpq.
      assert (block sq (fst p) (snd p) (fst q) (snd q) = block sq (fst p) (line p q (fst p)) (fst q) (line p q (fst q))) as ->
        by now rewrite line_left, line_right.
      apply cell_int; auto; lra.
    + replace (l ++ (p :: q :: inner) ++ r) with ((l ++ [p]) ++ (q :: inner) ++ r) in * by (now rewrite <- app_assoc).
      assert (last (q :: inner) p = last inner q) as ->; [|now apply IH].
      destruct inner as [|x inner]; [reflexivity|]. apply (last_default inner x p q).
Qed.

Lemma split_low ks lb : increasing ks -> (exists p, In p ks /\ fst p <= lb) ->
  exists pre p rest, ks = pre ++ p :: rest /\ fst p <= lb /\ Forall (fun q => lb < fst q) rest.
Proof.
  induction ks as [|a ks IH]; intros Hs (p & Hp & Hl); [destruct Hp|].
  pose proof Hs as Hs'. apply StronglySorted_inv in Hs as [Hs Hf].
  destruct (List.Forall_dec (fun q => lb < fst q) (fun q => Rlt_dec lb (fst q)) ks) as [Ha|Ha].
  - exists [], a, ks. split; [reflexivity|]. split; [|exact Ha].
    destruct Hp as [->|Hp]; [exact Hl|]. rewrite Forall_forall in Ha. specialize (Ha p Hp). lra.
  - apply neg_Forall_Exists_neg in Ha; [|intros; apply Rlt_dec]. apply Exists_exists in Ha as (x & Hx & Hn).
    destruct (IH Hs) as (pre & p' & rest & -> & H1 & H2); [exists x; split; [exact Hx|lra]|].
    exists (a :: pre), p', rest. auto.
Qed.
Lemma split_high (ks : table) ub : (exists p, In p ks /\ ub <= fst p) ->
  exists inner q post, ks = inner ++ q :: post /\ ub <= fst q /\ Forall (fun p => fst p < ub) inner.
Proof.
  induction ks as [|a ks IH]; intros (p & Hp & Hl); [destruct Hp|].
  destruct (Rle_dec ub (fst a)) as [Ha|Ha]; [exists [], a, ks; auto|].
  destruct Hp as [->|Hp]; [lra|]. destruct IH as (inner & q & post & -> & H1 & H2); [eauto|].
  exists (a :: inner), q, post. split; [reflexivity|]. split; [exact H1|]. constructor; [lra|exact H2].
Qed.
Lemma split_table ks lb ub : increasing ks -> covers ks lb ub -> lb < ub ->
  exists pre p inner q post, ks = pre ++ p :: inner ++ q :: post /\ fst p <= lb /\ ub <= fst q /\ Forall (fun x => lb < fst x < ub) inner.
Proof.
  intros Hs (a & b & Ha & Hb & H1 & H2) Hlt.
  destruct (split_low ks lb Hs) as (pre & p & rest & E & Hp & Hr); [eauto|]. subst ks.
  destruct (split_high rest ub) as (inner & q & post & -> & Hq & Hi).
  - exists b. split; [|exact H2]. apply in_app_or in Hb as [Hb|[->|Hb]]; [|lra|exact Hb].
    exfalso. apply in_split in Hb as (u & v & ->). rewrite <- app_assoc in Hs. cbn in Hs.
    assert (fst b < fst p); [|lra]. clear -Hs. induction u as [|x u IH]; cbn in Hs; apply StronglySorted_inv in Hs as [H1 H2].
    + rewrite Forall_app in H2. destruct H2 as [_ H2]. now inversion H2.
    + auto.
  - exists pre, p, inner, q, post. repeat split; auto. rewrite Forall_app in Hr. destruct Hr as [Hr _].
    rewrite Forall_forall in *. intros x Hx. split; auto.
Qed.
Section Indices.
Variable g : R * R -> bool.
Lemma filter_pass (l : table) : forall l0 l1, Forall (fun x => g x = true) l ->
  filter (fun i => g (nth i (l0 ++ l ++ l1) (0, 0))) (seq (length l0) (length l)) = seq (length l0) (length l).
Proof.
  induction l as [|a l IH]; intros l0 l1 Hf; [reflexivity|]. inversion Hf. subst. cbn [length seq filter].
  rewrite app_nth2, Nat.sub_diag by lia. cbn [nth app]. rewrite H1. f_equal.
  specialize (IH (l0 ++ [a]) l1 H2). rewrite app_length in IH. cbn [length] in IH. rewrite Nat.add_1_r in IH.
  rewrite <- app_assoc in IH. exact IH.
Qed.
Lemma filter_fail (l : table) : forall l0 l1, Forall (fun x => g x = false) l ->
  filter (fun i => g (nth i (l0 ++ l ++ l1) (0, 0))) (seq (length l0) (length l)) = [].
Proof.
  induction l as [|a l IH]; intros l0 l1 Hf; [reflexivity|]. inversion Hf. subst. cbn [length seq filter].
  rewrite app_nth2, Nat.sub_diag by lia. cbn [nth app]. rewrite H1.
  specialize (IH (l0 ++ [a]) l1 H2). rewrite app_length in IH. cbn [length] in IH. rewrite Nat.add_1_r in IH.
  rewrite <- app_assoc in IH. exact IH.
Qed.
Lemma filter_mid (A l B : table) : Forall (fun x => g x = false) A -> Forall (fun x => g x = true) l -> Forall (fun x => g x = false) B ->
  filter (fun i => g (nth i (A ++ l ++ B) (0, 0))) (seq 0 (length (A ++ l ++ B))) = seq (length A) (length l).
Proof.
  intros HA Hl HB. rewrite !app_length, !seq_app, !filter_app. cbn [Nat.add].
  pose proof (filter_fail A [] (l ++ B) HA) as E0. cbn [app length] in E0. rewrite E0. cbn [app].
  rewrite (filter_pass l A B Hl).
  pose proof (filter_fail B (A ++ l) [] HB) as E. rewrite app_nil_r, app_length, <- app_assoc in E. rewrite E. apply app_nil_r.
Qed.
Lemma map_mid (l : table) : forall A B, map (fun i => nth i (A ++ l ++ B) (0, 0)) (seq (length A) (length l)) = l.
Proof.
  induction l as [|a l IH]; intros A B; [reflexivity|]. cbn [length seq map]. rewrite app_nth2, Nat.sub_diag by lia. cbn [nth app]. f_equal.
  specialize (IH (A ++ [a]) B). rewrite app_length in IH. cbn [length] in IH. rewrite Nat.add_1_r in IH. rewrite <- app_assoc in IH. exact IH.
Qed.
End Indices.
Lemma at_mid (A B : table) x z : z = Z.of_nat (length A) -> at_index (A ++ x :: B) z = Some x.
Proof.
  intros ->. unfold at_index. destruct (Z.ltb_spec (Z.of_nat (length A)) 0); [lia|]. rewrite Nat2Z.id, nth_error_app2, Nat.sub_diag by lia. reflexivity.
Qed.
Lemma searchsorted_mid (A B : table) v : Forall (fun x => fst x < v) A -> Forall (fun x => v <= fst x) B -> searchsorted (A ++ B) v = length A.
Proof.
  intros HA HB. unfold searchsorted. rewrite filter_app, app_length.
  replace (filter (fun k => ltb (fst k) v) A) with A.
  - replace (filter (fun k => ltb (fst k) v) B) with (@nil (R * R)); [cbn; lia|].
    induction HB as [|b B Hb _ IH]; [reflexivity|]. cbn. rewrite (proj2 (ltb_false _ _) Hb). exact IH.
  - induction HA as [|a A Ha _ IH]; [reflexivity|]. cbn. rewrite (proj2 (ltb_true _ _) Ha). now f_equal.
Qed.
Lemma increasing_app A p B : increasing (A ++ p :: B) -> Forall (fun x => fst x < fst p) A /\ Forall (fun x => fst p < fst x) B.
Proof.
  induction A as [|a A IH]; cbn; intros H; apply StronglySorted_inv in H as [H1 H2].
  - split; [constructor|exact H2].
  - destruct (IH H1) as [I1 I2]. split; [|exact I2]. constructor; [|exact I1]. rewrite Forall_app in H2. destruct H2 as [_ H2]. now inversion H2.
Qed.
Lemma last_seq a n d : last (seq a (S n)) d = (a + n)%nat.
Proof. rewrite seq_S, last_last. lia. Qed.
Lemma integrate_exact sq ks lb ub : increasing ks -> covers ks lb ub -> lb < ub -> ~ knot ks lb \/ knot_between ks lb ub ->
  exists v, integrate_with (block sq) ks lb ub = Some v /\ is_RInt (fun t => power sq (interpolate ks t)) lb ub v.
Proof.
  intros Hs Hc Hlt Hk. destruct (split_table ks lb ub Hs Hc Hlt) as (pre & p & inner & q & post & E & Hp & Hq & Hi).
  pose proof (increasing_app pre p (inner ++ q :: post) ltac:(now rewrite <- E)) as [Hpre _].
  pose proof (increasing_app (pre ++ p :: inner) q post ltac:(rewrite <- app_assoc; cbn [app]; now rewrite <- E)) as [_ Hpost].
  set (g := fun x : R * R => andb (ltb lb (fst x)) (ltb (fst x) ub)).
  assert (Hin : filter (fun i => g (nth i ks (0, 0))) (seq 0 (length ks)) = seq (length (pre ++ [p])) (length inner)).
  { replace ks with ((pre ++ [p]) ++ inner ++ q :: post) by (now rewrite E, <- app_assoc). apply filter_mid.
    - apply Forall_app. split.
      + rewrite Forall_forall in *. intros x Hx. specialize (Hpre x Hx). unfold g. rewrite (proj2 (ltb_false lb (fst x))); [reflexivity|lra].
      + constructor; [|constructor]. unfold g. rewrite (proj2 (ltb_false lb (fst p))); [reflexivity|lra].
    - rewrite Forall_forall in *. intros x Hx. specialize (Hi x Hx). unfold g. now rewrite !(proj2 (ltb_true _ _)) by lra.
    - constructor.
      + unfold g. rewrite (proj2 (ltb_false (fst q) ub)) by lra. apply Bool.andb_false_r.
      + rewrite Forall_forall in *. intros x Hx. specialize (Hpost x Hx). unfold g. rewrite (proj2 (ltb_false (fst x) ub)) by lra. apply Bool.andb_false_r. }
  unfold integrate_with. fold g. unfold g in Hin at 1. rewrite Hin. clear Hin g.
  destruct inner as [|a inner].
  - cbn [length seq]. assert (Hpl : fst p < lb).
    { destruct (Rlt_dec (fst p) lb) as [H|H]; [exact H|]. exfalso. destruct Hk as [Hk|(t & (x & Hx & Ht) & Hlu)].
      - apply Hk. exists p. split; [rewrite E; apply in_or_app; right; now left|lra].
      - subst t. rewrite E in Hx. apply in_app_or in Hx as [Hx|[<-|Hx]]; [|lra|].
        + rewrite Forall_forall in Hpre. specialize (Hpre x Hx). lra.
        + destruct Hx as [<-|Hx]; [lra|]. rewrite Forall_forall in Hpost. specialize (Hpost x Hx). lra. }
    cbn [app] in E. subst ks.
    assert (Hss : searchsorted (pre ++ p :: q :: post) lb = S (length pre)).
    { replace (pre ++ p :: q :: post) with ((pre ++ [p]) ++ q :: post) by now rewrite <- app_assoc.
      rewrite searchsorted_mid; [rewrite app_length; cbn; lia| |].
      - apply Forall_app. split; [|constructor; [lra|constructor]]. eapply Forall_impl; [|exact Hpre]. cbn. intros x Hx. lra.
      - constructor; [lra|]. eapply Forall_impl; [|exact Hpost]. cbn. intros x Hx. lra. }
    rewrite Hss, (at_mid pre (q :: post) p) by lia.
    assert (at_index (pre ++ p :: q :: post) (Z.of_nat (S (length pre))) = Some q) as ->.
    { replace (pre ++ p :: q :: post) with ((pre ++ [p]) ++ q :: post) by now rewrite <- app_assoc. apply at_mid. rewrite app_length. cbn. lia. }
    cbn [bind]. eexists. split; [reflexivity|]. apply cell_int; auto; lra.
  - remember (seq (length (pre ++ [p])) (length (a :: inner))) as w eqn:Ew.
    assert (Hl : last w 0%nat = (length (pre ++ [p]) + length inner)%nat) by (rewrite Ew; apply last_seq).
    assert (Hlast : exists inner0 z, a :: inner = inner0 ++ [z] /\ z = last inner a /\ length inner0 = length inner).
    { destruct (exists_last (l := a :: inner)) as (i0 & z & Ez); [discriminate|]. exists i0, z. split; [exact Ez|].
      assert (El : last (a :: inner) a = z) by (rewrite Ez; apply last_last). split; [|apply (f_equal (@length _)) in Ez; rewrite app_length in Ez; cbn in Ez; lia].
      rewrite <- El. destruct inner; reflexivity. }
    destruct Hlast as (i0 & z & Ez & Hz & Hlen).
    assert (Hm : map (fun i => nth i ks (0, 0)) w = a :: inner).
    { rewrite Ew. replace ks with ((pre ++ [p]) ++ (a :: inner) ++ q :: post) by (now rewrite E, <- app_assoc). apply (map_mid (a :: inner)). }
    destruct w as [|w0 w']; [discriminate Ew|]. assert (w0 = length (pre ++ [p])) by (cbn in Ew; congruence). subst w0.
    rewrite Hl, Hm. clear Ew Hl Hm w'.
    assert (at_index ks (Z.of_nat (length (pre ++ [p])) - 1) = Some p) as ->.
    { rewrite E. apply at_mid. rewrite app_length. cbn. lia. }
    assert (at_index ks (Z.of_nat (length (pre ++ [p]))) = Some a) as ->.
    { rewrite E. replace (pre ++ p :: (a :: inner) ++ q :: post) with ((pre ++ [p]) ++ a :: inner ++ q :: post) by now rewrite <- app_assoc. now apply at_mid. }
    assert (Ek : ks = (pre ++ p :: i0) ++ z :: q :: post).
    { rewrite E. rewrite Ez. rewrite <- !app_assoc. reflexivity. }
    assert (at_index ks (Z.of_nat (length (pre ++ [p]) + length inner)) = Some z) as ->.
    { rewrite Ek. apply at_mid. rewrite !app_length. cbn. lia. }
    assert (at_index ks (Z.of_nat (length (pre ++ [p]) + length inner) + 1) = Some q) as ->.
    { rewrite Ek. replace ((pre ++ p :: i0) ++ z :: q :: post) with ((pre ++ p :: i0 ++ [z]) ++ q :: post)
        by (rewrite <- !app_assoc; cbn; now rewrite <- app_assoc).
      apply at_mid. rewrite !app_length. cbn [length]. rewrite app_length. cbn. lia. }
    cbn [bind]. eexists. split; [reflexivity|].
    assert (Ha : lb < fst a < ub) by now inversion Hi.
    assert (Hzb : lb < fst z < ub). { rewrite Ez in Hi. apply Forall_app in Hi as [_ Hi]. now inversion Hi. }
    rewrite (Rplus_comm (pieces _ _)), Rplus_assoc.
    apply (is_RInt_Chasles (V := R_NormedModule) _ lb (fst a)).
    + assert (E' : ks = pre ++ p :: a :: inner ++ q :: post) by (rewrite E; reflexivity). rewrite E' in *.
      rewrite <- (line_right p a (increasing_cell _ _ _ _ Hs)). apply cell_int; auto; lra.
    + apply (is_RInt_Chasles (V := R_NormedModule) _ (fst a) (fst z)).
      * rewrite Hz. replace ks with ((pre ++ [p]) ++ (a :: inner) ++ q :: post) in * by (rewrite E, <- app_assoc; reflexivity). apply pieces_int. exact Hs.
      * rewrite Ek in *. rewrite <- (line_left z q) at 1. apply cell_int; auto; lra.
Qed.
