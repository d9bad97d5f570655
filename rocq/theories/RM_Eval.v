From Coq Require Import Reals List Lia Lra Sorted ZArith.
From Coquelicot Require Import Coquelicot.
From Verif Require Import RM_Model RM_Spec RM_Integrate.
From Coq Require Import List.
Import ListNotations.
Open Scope R_scope.

Lemma integrate_RInt ks lb ub : increasing ks -> covers ks lb ub -> lb < ub -> ~ knot ks lb \/ knot_between ks lb ub ->
  integrate ks lb ub = Some (RInt (interpolate ks) lb ub).
Proof.
  intros H1 H2 H3 H4. destruct (integrate_exact false ks lb ub H1 H2 H3 H4) as (v & E & Hv).
  unfold integrate. change piece with (block false). rewrite E. apply (is_RInt_unique (V := R_CompleteNormedModule)) in Hv. rewrite <- Hv. reflexivity.
Qed.
Lemma integrate_sq_RInt ks lb ub : increasing ks -> covers ks lb ub -> lb < ub -> ~ knot ks lb \/ knot_between ks lb ub ->
  integrate_sq ks lb ub = Some (RInt (fun t => interpolate ks t ^ 2) lb ub).
Proof.
  intros H1 H2 H3 H4. destruct (integrate_exact true ks lb ub H1 H2 H3 H4) as (v & E & Hv).
  unfold integrate_sq. change piece_sq with (block true). rewrite E. apply (is_RInt_unique (V := R_CompleteNormedModule)) in Hv. rewrite <- Hv. reflexivity.
Qed.
Lemma covers_sub ks a b a' b' : covers ks a b -> a <= a' -> b' <= b -> covers ks a' b'.
Proof. intros (p & q & Hp & Hq & H1 & H2) Ha Hb. exists p, q. repeat split; auto; lra. Qed.
Lemma last_max ks : forall p q, increasing (p :: ks) -> In q (p :: ks) -> fst q <= fst (last (p :: ks) p).
Proof.
  induction ks as [|a ks IH]; intros p q Hs Hq.
  - destruct Hq as [->|[]]. cbn. lra.
  - pose proof Hs as Hs'. apply StronglySorted_inv in Hs as [Hs Hf].
    assert (E : last (p :: a :: ks) p = last (a :: ks) a) by apply (last_default ks a p a).
    rewrite E. destruct Hq as [->|Hq]; [|now apply IH].
    inversion Hf. subst. pose proof (IH a a Hs (or_introl eq_refl)). lra.
Qed.
Lemma interp1d_some ks t : increasing ks -> covers ks t t -> interp1d ks t = Some (interpolate ks t).
Proof.
  intros Hs (p & q & Hp & Hq & H1 & H2). destruct ks as [|a ks]; [destruct Hp|].
  pose proof (last_max ks a q Hs Hq). assert (fst a <= fst p).
  { destruct Hp as [->|Hp]; [lra|]. apply StronglySorted_inv in Hs as [_ Hf]. rewrite Forall_forall in Hf. specialize (Hf p Hp). lra. }
  unfold interp1d. destruct (Rlt_dec t (fst a)); [lra|]. destruct (Rlt_dec _ t); [lra|reflexivity].
Qed.
(** ** Angles *)
Lemma two_pi : 0 < 2 * PI. Proof. pose proof PI_RGT_0. lra. Qed.
Lemma modulo_range t : 0 <= modulo t (2 * PI) < 2 * PI.
Proof.
  unfold modulo. pose proof two_pi as H. pose proof (base_fp (t / (2 * PI))) as [H1 H2]. unfold frac_part in *.
  assert (E : t - 2 * PI * IZR (Int_part (t / (2 * PI))) = 2 * PI * (t / (2 * PI) - IZR (Int_part (t / (2 * PI))))) by (field; pose proof PI_RGT_0; lra).
  rewrite E. split; [apply Rmult_le_pos; lra|]. apply Rlt_le_trans with (2 * PI * 1); [apply Rmult_lt_compat_l; lra|lra].
Qed.
Lemma adj_range t : - PI < adj t <= PI.
Proof. pose proof (modulo_range t). pose proof PI_RGT_0. unfold adj. destruct (Rlt_dec PI _); lra. Qed.
Lemma adj_turns t : exists k : Z, adj t = t + 2 * PI * IZR k.
Proof.
  unfold adj, modulo. destruct (Rlt_dec PI _).
  - exists (- Int_part (t / (2 * PI)) - 1)%Z. rewrite minus_IZR, opp_IZR. ring.
  - exists (- Int_part (t / (2 * PI)))%Z. rewrite opp_IZR. ring.
Qed.
Lemma adj_unique t s (k : Z) : - PI < s <= PI -> s = t + 2 * PI * IZR k -> adj t = s.
Proof.
  intros Hs E. destruct (adj_turns t) as [k' E']. pose proof (adj_range t) as Hr. pose proof PI_RGT_0.
  assert (k = k'); [|subst; lra].
  assert (-1 < IZR (k - k') < 1). { rewrite minus_IZR. split; apply (Rmult_lt_reg_l (2 * PI)); lra. }
  destruct H0 as [H1 H2]. apply lt_IZR in H1. apply lt_IZR in H2. lia.
Qed.
Lemma adj_id t : - PI < t <= PI -> adj t = t.
Proof. intros H. apply (adj_unique t t 0%Z H). ring. Qed.
Lemma adj_period t k : adj (t + 2 * PI * IZR k) = adj t.
Proof. destruct (adj_turns t) as [k' E]. apply (adj_unique _ _ (k' - k)%Z (adj_range t)). rewrite E, minus_IZR. ring. Qed.

(** ** Sums *)
Lemma sum_single n k (a : nat -> R) : (k <= n)%nat -> sum_f_R0 (fun i => if Nat.eqb i k then a i else 0) n = a k.
Proof.
  induction n as [|n IH]; intros Hk.
  - assert (k = 0%nat) by lia. subst. reflexivity.
  - cbn [sum_f_R0]. destruct (Nat.eqb_spec (S n) k) as [<-|Hne].
    + assert (E : forall m, (m <= n)%nat -> sum_f_R0 (fun i => if Nat.eqb i (S n) then a i else 0) m = 0).
      { induction m as [|m IHm]; intros Hm; cbn [sum_f_R0]; [reflexivity|]. rewrite IHm by lia. destruct (Nat.eqb_spec (S m) (S n)); [lia|]. ring. }
      rewrite E by lia. ring.
    + rewrite IH by lia. ring.
Qed.
Lemma sum_ext n (a b : nat -> R) : (forall i, (i <= n)%nat -> a i = b i) -> sum_f_R0 a n = sum_f_R0 b n.
Proof. apply sum_eq. Qed.
Lemma is_derive_sum (F : nat -> R -> R) (D : nat -> R) n x : (forall i, (i <= n)%nat -> is_derive (F i) x (D i)) ->
  is_derive (fun t => sum_f_R0 (fun i => F i t) n) x (sum_f_R0 D n).
Proof.
  induction n as [|n IH]; intros H; cbn [sum_f_R0]; [apply H; lia|].
  apply (is_derive_plus (V := R_NormedModule)); [apply IH; intros i Hi; apply H; lia|apply H; lia].
Qed.
Lemma mapM_some {A B} (f : A -> option B) g l : (forall x, In x l -> f x = Some (g x)) -> mapM f l = Some (map g l).
Proof.
  induction l as [|a l IH]; intros H; [reflexivity|]. cbn. rewrite (H a) by now left. cbn. rewrite IH; [reflexivity|]. intros x Hx. apply H. now right.
Qed.
Lemma mapM_ext {A B} (f g : A -> option B) l : (forall x, In x l -> f x = g x) -> mapM f l = mapM g l.
Proof.
  induction l as [|a l IH]; intros H; [reflexivity|]. cbn. rewrite (H a) by now left. rewrite IH; [reflexivity|]. intros x Hx. apply H. now right.
Qed.
Lemma mapM_none {A B} (f : A -> option B) l x : In x l -> f x = None -> mapM f l = None.
Proof.
  induction l as [|a l IH]; intros Hx E; [destruct Hx|]. cbn. destruct Hx as [->|Hx]; [now rewrite E|]. destruct (f a); [cbn|reflexivity]. now rewrite IH.
Qed.
Lemma drums_in i : In i drums <-> (i < 8)%nat.
Proof. unfold drums. rewrite in_seq. lia. Qed.
Lemma cangle_bounds i : (i < 8)%nat -> 0 < cangle i < PI.
Proof.
  intros Hi. pose proof PI_RGT_0 as HP. unfold cangle.
  assert (H : 130 <= nth i [130; 145; 145; 130; 130; 145; 145; 130] 0 <= 145) by (do 8 (destruct i as [|i]; [cbn; lra|]); lia).
  set (c := nth i _ 0) in *. split.
  - apply Rmult_lt_0_compat; lra.
  - rewrite <- (Rmult_1_l PI) at 2. apply Rmult_lt_compat_r; lra.
Qed.

(** ** The pieces of the model *)
Section Pieces.
Variable m : reactor.
Hypothesis Hm : fine m.
Lemma cont i : (i < 8)%nat -> forall t, continuous (current m i) t.
Proof. intros Hi. apply interpolate_continuous. apply (Hm i Hi). Qed.
Lemma cont2 i : (i < 8)%nat -> forall t, continuous (fun s => current m i s ^ 2) t.
Proof.
  intros Hi t. apply (continuous_ext (fun s => current m i s * current m i s)); [intros x; match goal with |- ?a = ?b => change (@eq R a b) end; ring|].
  apply (continuous_mult (K := R_AbsRing)); now apply cont.
Qed.
Lemma move_left (x y z : R) : x + y = z -> y = z - x. Proof. lra. Qed.
Lemma RInt_split (f : R -> R) a b : (forall t, continuous f t) -> RInt f a b = RInt f 0 b - RInt f 0 a.
Proof.
  intros H. assert (Hex : forall u v, ex_RInt f u v) by (intros u v; apply (ex_RInt_continuous (V := R_CompleteNormedModule)); auto).
  pose proof (RInt_Chasles f 0 a b (Hex 0 a) (Hex a b)) as E. change (@eq R (RInt f 0 a + RInt f a b) (RInt f 0 b)) in E.
  exact (move_left _ _ _ E).
Qed.
Lemma gammastar_is th i : (i < 8)%nat -> - PI <= th i <= PI -> gammastar m th i = Some (1 - absorbed m i (th i)).
Proof.
  intros Hi Ht. destruct (Hm i Hi) as (H1 & H2 & H3). pose proof (cangle_bounds i Hi) as Hc. unfold gammastar.
  rewrite integrate_RInt; [reflexivity|exact H1|apply (covers_sub _ _ _ _ _ H2); lra|lra|].
  right. replace (th i + cangle i / 2) with (th i - cangle i / 2 + cangle i) by field. apply H3; lra.
Qed.
Lemma zetatildes_is th : (forall i, (i < 8)%nat -> - PI <= th i <= PI) -> exists z, zetatildes m th = Some z /\ forall j, z j = zeta m th j.
Proof.
  intros Ht. unfold zetatildes. rewrite (mapM_some _ (fun i => 1 - absorbed m i (th i))).
  - eexists. split; [reflexivity|]. intros j. unfold zeta, drums. cbn. ring.
  - intros i Hi. apply drums_in in Hi. apply gammastar_is; auto.
Qed.
Lemma difference_is th i : (i < 8)%nat -> - PI <= th i <= PI -> generic m th -> difference m th i = Some (squared m i (th i)).
Proof.
  intros Hi Ht Hg. destruct (Hm i Hi) as (H1 & H2 & H3). destruct (Hg i Hi) as (G1 & G2 & G3 & G4).
  pose proof (cangle_bounds i Hi) as Hc. pose proof PI_RGT_0 as HP. assert (0 < tolerance) by (unfold tolerance; apply Rinv_0_lt_compat; lra).
  unfold difference, int_bounds. rewrite !(proj2 (ltb_true _ _)) by lra. cbn [andb].
  assert (Hfull : forall a b, b = a + cangle i -> - PI - cangle i / 2 <= a -> b <= PI + cangle i / 2 -> knot_between (jm m i) a b).
  { intros a b -> Ha Hb. apply H3; assumption. }
  assert (Hsq : forall a b, a < b -> - PI - cangle i / 2 <= a -> b <= PI + cangle i / 2 -> ~ knot (jm m i) a \/ knot_between (jm m i) a b ->
    integrate_sq (jm m i) a b = Some (RInt (fun s => current m i s ^ 2) a b)).
  { intros a b Hab Ha Hb Hk. apply integrate_sq_RInt; auto. apply (covers_sub _ _ _ _ _ H2); lra. }
  pose proof (cont2 i Hi) as Hcont. unfold squared.
  destruct (ltb 0 (th i)) eqn:E1; destruct (ltb (th i) (cangle i)) eqn:E2; destruct (ltb (- cangle i) (th i)) eqn:E3; destruct (ltb (th i) 0) eqn:E4;
    rewrite ?ltb_true, ?ltb_false in *; try lra; cbn [andb bind fst snd]; rewrite !Hsq by (first [lra | now left | right; apply Hfull; lra]); cbn [bind]; f_equal;
    try (rewrite (RInt_split _ (cangle i / 2)), (RInt_split _ (- cangle i / 2) (th i - _)), (RInt_split _ (th i - cangle i / 2)), (RInt_split _ (- cangle i / 2) (cangle i / 2)) by exact Hcont; ring);
    try (rewrite (RInt_split _ (th i - _) (- _ / 2)), (RInt_split _ (th i + _)), (RInt_split _ (th i - cangle i / 2)), (RInt_split _ (- cangle i / 2) (cangle i / 2)) by exact Hcont; ring);
    reflexivity.
Qed.
End Pieces.
