(** Proofs about the losses of PPO2 and A2C. *)
From Coq Require Import List Arith ZArith Reals Lra Lia.
From Verif Require Import PD_Model PD_Spec PD_Proofs LS_Model LS_Spec LS_Loss.
Import ListNotations.
Open Scope R_scope.

Lemma ratio_pos : forall o n, 0 < ppo_ratio o n.
Proof. intros. apply exp_pos. Qed.
Lemma pg1_cases : forall adv o n c, 0 <= c ->
  (0 <= adv -> ppo_pg1 adv o n c = - (adv * Rmin (ppo_ratio o n) (1 + c))) /\
  (adv <= 0 -> ppo_pg1 adv o n c = - (adv * Rmax (ppo_ratio o n) (1 - c))).
Proof.
  intros adv o n c C. unfold ppo_pg1. set (r := ppo_ratio o n). destruct (clip_within r (1 - c) (1 + c) ltac:(lra)) as (K0 & K1 & K2 & K3).
  assert (X : forall a b d, a = d -> b <= d -> Rmax a b = d) by (intros a b d E L; subst; apply Rmax_left; exact L).
  assert (Y : forall a b d, b = d -> a <= d -> Rmax a b = d) by (intros a b d E L; subst; apply Rmax_right; exact L).
  split; intros A.
  - destruct (Rle_dec r (1 + c)) as [L|L].
    + rewrite Rmin_left by exact L. apply X; [ring|]. assert (r <= clip r (1 - c) (1 + c)) by (destruct (Rlt_dec r (1 - c)); [rewrite K2 by assumption; lra|rewrite K1; lra]). nra.
    + rewrite Rmin_right by lra. rewrite K3 by lra. apply Y; [ring|]. nra.
  - destruct (Rle_dec (1 - c) r) as [L|L].
    + rewrite (Rmax_left r (1 - c)) by exact L. apply X; [ring|]. assert (clip r (1 - c) (1 + c) <= r) by (destruct (Rlt_dec (1 + c) r); [rewrite K3 by assumption; lra|rewrite K1; lra]). nra.
    + rewrite (Rmax_right r (1 - c)) by lra. rewrite K2 by lra. apply Y; [ring|]. nra.
Qed.
Lemma pg_pessimistic : forall c l, 0 <= c -> rmean (map (fun x => - (p_adv x * exp (p_old x - p_new x))) l) <= ppo_pg c l /\
  ((forall x, In x l -> 1 - c <= exp (p_old x - p_new x) <= 1 + c) -> ppo_pg c l = rmean (map (fun x => - (p_adv x * exp (p_old x - p_new x))) l)).
Proof.
  intros c l C. unfold ppo_pg. split.
  - apply rmean_le. intros x _. unfold ppo_pg1, ppo_ratio. eapply Rle_trans; [|apply Rmax_l]. lra.
  - intros H. apply rmean_ext. intros x Hx. unfold ppo_pg1. fold (ppo_ratio (p_old x) (p_new x)) in *.
    rewrite (proj1 (proj2 (clip_within (ppo_ratio (p_old x) (p_new x)) (1 - c) (1 + c) ltac:(lra)))) by (apply H; exact Hx).
    rewrite Rmax_left by apply Rle_refl. unfold ppo_ratio. ring.
Qed.
Lemma ratio_slope : forall k o n, derivable_pt_lim (fun x => - (k * ppo_ratio o x)) n (k * ppo_ratio o n).
Proof.
  intros k o n. unfold ppo_ratio.
  eapply derive_ext with (g := mult_real_fct (- k) (comp exp (fun x => -1 * x + o))); [intros y; unfold mult_real_fct, comp; replace (-1 * y + o) with (o - y) by ring; ring|].
  replace (k * exp (o - n)) with (- k * (exp (-1 * n + o) * -1)) by (replace (-1 * n + o) with (o - n) by ring; ring).
  apply derivable_pt_lim_scal. apply derivable_pt_lim_comp; [apply derive_affine|apply derivable_pt_lim_exp].
Qed.
Lemma ratio_near : forall o n d, 0 < d -> exists eps, 0 < eps /\ forall y, Rabs (y - n) < eps -> Rabs (ppo_ratio o y - ppo_ratio o n) < d.
Proof.
  intros o n d D. assert (C : continuity_pt (fun y => ppo_ratio o y) n).
  { apply derivable_continuous_pt. exists (-1 * ppo_ratio o n). eapply derive_ext with (g := fun x => - (-1 * ppo_ratio o x)); [intros; ring|]. apply ratio_slope. }
  destruct (C d D) as [a [A H]]. exists a. split; [exact A|]. intros y Hy. destruct (Req_dec y n) as [E|E]; [subst; replace (ppo_ratio o n - ppo_ratio o n) with 0 by ring; rewrite Rabs_R0; exact D|].
  apply H. split; [split; [exact I|auto]|exact Hy].
Qed.
Lemma pg1_slope : forall adv o n c, 0 <= c ->
  (0 < adv -> 1 + c < exp (o - n) -> derivable_pt_lim (fun x => ppo_pg1 adv o x c) n 0) /\
  (adv < 0 -> exp (o - n) < 1 - c -> derivable_pt_lim (fun x => ppo_pg1 adv o x c) n 0) /\
  (0 < adv -> exp (o - n) < 1 + c -> derivable_pt_lim (fun x => ppo_pg1 adv o x c) n (adv * exp (o - n))) /\
  (adv < 0 -> 1 - c < exp (o - n) -> derivable_pt_lim (fun x => ppo_pg1 adv o x c) n (adv * exp (o - n))).
Proof.
  intros adv o n c C. fold (ppo_ratio o n).
  assert (Z : forall k, derivable_pt_lim (fun _ : R => k) n 0) by (intros; apply derivable_pt_lim_const).
  split; [|split; [|split]]; intros A H.
  - destruct (ratio_near o n (ppo_ratio o n - (1 + c)) ltac:(lra)) as [e [E N]].
    eapply derive_local with (eps := e) (g := fun _ => - (adv * (1 + c))); [exact E| |apply Z]. intros y Hy. apply N in Hy. apply Rabs_def2 in Hy.
    rewrite (proj1 (pg1_cases adv o y c C)) by lra. rewrite Rmin_right by lra. reflexivity.
  - destruct (ratio_near o n (1 - c - ppo_ratio o n) ltac:(lra)) as [e [E N]].
    eapply derive_local with (eps := e) (g := fun _ => - (adv * (1 - c))); [exact E| |apply Z]. intros y Hy. apply N in Hy. apply Rabs_def2 in Hy.
    rewrite (proj2 (pg1_cases adv o y c C)) by lra. rewrite Rmax_right by lra. reflexivity.
  - destruct (ratio_near o n (1 + c - ppo_ratio o n) ltac:(lra)) as [e [E N]].
    eapply derive_local with (eps := e) (g := fun x => - (adv * ppo_ratio o x)); [exact E| |apply ratio_slope]. intros y Hy. apply N in Hy. apply Rabs_def2 in Hy.
    rewrite (proj1 (pg1_cases adv o y c C)) by lra. rewrite Rmin_left by lra. reflexivity.
  - destruct (ratio_near o n (ppo_ratio o n - (1 - c)) ltac:(lra)) as [e [E N]].
    eapply derive_local with (eps := e) (g := fun x => - (adv * ppo_ratio o x)); [exact E| |apply ratio_slope]. intros y Hy. apply N in Hy. apply Rabs_def2 in Hy.
    rewrite (proj2 (pg1_cases adv o y c C)) by lra. rewrite Rmax_left by lra. reflexivity.
Qed.
Lemma ratio_same : forall o, ppo_ratio o o = 1.
Proof. intros. unfold ppo_ratio. replace (o - o) with 0 by ring. apply exp_0. Qed.
Lemma pg1_zero : forall o n c, ppo_pg1 0 o n c = 0.
Proof. intros. unfold ppo_pg1. replace (- 0) with 0 by ring. rewrite !Rmult_0_l. apply Rmax_left. lra. Qed.
Lemma kl_facts : forall l, l <> [] -> 0 <= ppo_kl l /\ (ppo_kl l = 0 <-> forall x, In x l -> p_new x = p_old x).
Proof.
  intros l N. unfold ppo_kl. destruct (rmean_nonneg_zero (fun x => sq (p_new x - p_old x)) l N) as [A B]; [intros; unfold sq; apply Rle_0_sqr|].
  split; [lra|]. split.
  - intros E x Hx. assert (Z : sq (p_new x - p_old x) = 0) by (apply B; [lra|exact Hx]). unfold sq in Z. apply Rmult_integral in Z. destruct Z; lra.
  - intros E. rewrite (proj2 B); [ring|]. intros x Hx. unfold sq. rewrite (E x Hx). ring.
Qed.
Lemma share_mean : forall {A} (p : A -> Prop) (dec : forall x, {p x} + {~ p x}) l, rmean (map (fun x => if dec x then 1 else 0) l) = share p dec l.
Proof.
  intros A p dec l. rewrite rmean_map. unfold share. f_equal. induction l as [|x t IH]; [reflexivity|]. cbn [map filter]. cbn [total fold_right]. fold (total (map (fun x => if dec x then 1 else 0) t)). rewrite IH.
  destruct (dec x); [|ring]. cbn [List.length]. rewrite S_INR. ring.
Qed.
Definition far (c : R) (x : prow) : Prop := c < Rabs (exp (p_old x - p_new x) - 1).
Definition far_dec (c : R) (x : prow) : {far c x} + {~ far c x} := Rlt_dec _ _.
Lemma clipfrac_share : forall c l, ppo_clipfrac c l = share (far c) (far_dec c) l.
Proof. intros c l. unfold ppo_clipfrac. exact (share_mean (far c) (far_dec c) l). Qed.

(** ** The value loss *)
Lemma vclip_same : forall v o c, 0 <= c -> (ppo_vclip v o (Some c) = v <-> Rabs (v - o) <= c).
Proof.
  intros v o c C. cbn. destruct (clip_within (v - o) (- c) c ltac:(lra)) as (K0 & K1 & K2 & K3). split.
  - intros E. assert (X : v - o = clip (v - o) (- c) c) by lra. apply Rabs_le. lra.
  - intros H. rewrite K1; [ring|]. unfold Rabs in H. destruct (Rcase_abs (v - o)); lra.
Qed.
Lemma sq_zero : forall x, sq x = 0 <-> x = 0.
Proof. intros x. unfold sq. split; [intros H; apply Rmult_integral in H; destruct H; assumption|intros ->; ring]. Qed.
Lemma sq_pos : forall x, 0 <= sq x.
Proof. intros. unfold sq. apply Rle_0_sqr. Qed.
Lemma vf_facts : forall cv l, 5 / 10 * rmean (map (fun x => (p_v x - p_ret x) * (p_v x - p_ret x)) l) <= ppo_vf cv l /\
  ((forall c, cv = Some c -> 0 <= c /\ forall x, In x l -> Rabs (p_v x - p_oldv x) <= c) -> ppo_vf cv l = 5 / 10 * rmean (map (fun x => (p_v x - p_ret x) * (p_v x - p_ret x)) l)).
Proof.
  intros cv l. unfold ppo_vf. split.
  - apply Rmult_le_compat_l; [lra|]. apply rmean_le. intros x _. unfold ppo_vf1. apply Rmax_l.
  - intros H. f_equal. apply rmean_ext. intros x Hx. unfold ppo_vf1. destruct cv as [c|].
    + destruct (H c eq_refl) as [C F]. rewrite (proj2 (vclip_same (p_v x) (p_oldv x) c C) (F x Hx)). apply Rmax_left. apply Rle_refl.
    + apply Rmax_left. apply Rle_refl.
Qed.
Lemma vf_zero : forall c l, 0 <= c -> l <> [] -> (ppo_vf (Some c) l = 0 <-> forall x, In x l -> p_v x = p_ret x /\ Rabs (p_v x - p_oldv x) <= c).
Proof.
  intros c l C N. unfold ppo_vf.
  assert (P : forall x, In x l -> 0 <= ppo_vf1 (p_v x) (p_oldv x) (p_ret x) (Some c)) by (intros x _; unfold ppo_vf1; eapply Rle_trans; [apply sq_pos|apply Rmax_l]).
  destruct (rmean_nonneg_zero _ l N P) as [A B]. split.
  - intros E x Hx. assert (Z : ppo_vf1 (p_v x) (p_oldv x) (p_ret x) (Some c) = 0) by (apply B; [lra|exact Hx]). unfold ppo_vf1 in Z.
    pose proof (Rmax_l (sq (p_v x - p_ret x)) (sq (ppo_vclip (p_v x) (p_oldv x) (Some c) - p_ret x))) as L. pose proof (Rmax_r (sq (p_v x - p_ret x)) (sq (ppo_vclip (p_v x) (p_oldv x) (Some c) - p_ret x))) as R0.
    rewrite Z in L, R0. pose proof (sq_pos (p_v x - p_ret x)) as S1. pose proof (sq_pos (ppo_vclip (p_v x) (p_oldv x) (Some c) - p_ret x)) as S2.
    assert (E1 : p_v x - p_ret x = 0) by (apply sq_zero; lra). assert (E2 : ppo_vclip (p_v x) (p_oldv x) (Some c) - p_ret x = 0) by (apply sq_zero; lra).
    split; [lra|]. apply vclip_same; [exact C|]. lra.
  - intros H. rewrite (proj2 B); [ring|]. intros x Hx. destruct (H x Hx) as [E F]. unfold ppo_vf1. rewrite (proj2 (vclip_same (p_v x) (p_oldv x) c C) F), E. replace (p_ret x - p_ret x) with 0 by ring. unfold sq. rewrite Rmax_left; lra.
Qed.

(** ** Advantages *)
Definition gaps (rets vals : list R) : list R := map (fun rv => fst rv - snd rv) (combine rets vals).
Lemma rmean_plus : forall {A} (f g : A -> R) l, rmean (map (fun x => f x + g x) l) = rmean (map f l) + rmean (map g l).
Proof. intros. rewrite !rmean_map, total_plus. unfold Rdiv. ring. Qed.
Lemma rmean_self : forall l, rmean l = rmean (map (fun x => x) l).
Proof. intros. rewrite map_id. reflexivity. Qed.
Lemma centered : forall l, l <> [] -> rmean (map (fun x => x - rmean l) l) = 0.
Proof.
  intros l N. unfold Rminus. rewrite (rmean_plus (fun x => x) (fun _ => - rmean l)). rewrite map_id. rewrite (rmean_const (fun _ => - rmean l) (- rmean l)) by auto. ring.
Qed.
Lemma var_nonneg : forall l, l <> [] -> 0 <= rmean (map (fun x => sq (x - rmean l)) l).
Proof. intros l N. apply rmean_nonneg_zero; [exact N|]. intros. apply sq_pos. Qed.
Lemma normal_scale : forall l s e, l <> [] -> map (fun x => (x - rmean l) / (s + e)) l = map (fun x => / (s + e) * (x - rmean l)) l.
Proof. intros. apply map_ext. intros. unfold Rdiv. ring. Qed.
Lemma advantages_facts : forall rets vals, rets <> [] -> List.length vals = List.length rets ->
  let a := advantages rets vals in
  List.length a = List.length rets /\ avg a = 0 /\ avg (map (fun x => x * x) a) < 1 /\
  (forall i j, (i < List.length rets)%nat -> (j < List.length rets)%nat -> (nth i a 0 < nth j a 0 <-> nth i rets 0 - nth i vals 0 < nth j rets 0 - nth j vals 0)) /\
  ((forall i, (i < List.length rets)%nat -> nth i a 0 = 0) <-> (forall i j, (i < List.length rets)%nat -> (j < List.length rets)%nat -> nth i rets 0 - nth i vals 0 = nth j rets 0 - nth j vals 0)).
Proof.
  intros rets vals N L. cbv zeta. unfold advantages. fold (gaps rets vals). set (g := gaps rets vals).
  assert (LG : List.length g = List.length rets) by (unfold g, gaps; rewrite map_length, combine_length, L; lia).
  assert (NG : g <> []) by (intros E; rewrite E in LG; destruct rets; [congruence|discriminate LG]).
  assert (G : forall i, (i < List.length rets)%nat -> nth i g 0 = nth i rets 0 - nth i vals 0).
  { intros i Hi. unfold g, gaps. set (f := fun rv : R * R => fst rv - snd rv). transitivity (nth i (map f (combine rets vals)) (f (0, 0))); [apply nth_indep; rewrite map_length, combine_length, L; lia|]. rewrite (map_nth f), combine_nth by (symmetry; exact L). reflexivity. }
  set (e := 1 / 100000000). assert (E0 : 0 < e) by (unfold e; lra). clearbody e. set (s := rstd g). assert (S0 : 0 <= s) by (unfold s, rstd; apply sqrt_pos).
  assert (P : 0 < s + e) by lra. pose proof (Rinv_0_lt_compat _ P) as I.
  assert (LM : List.length (map (fun x => (x - rmean g) / (s + e)) g) = List.length rets) by (rewrite map_length; exact LG).
  assert (NT : forall i, (i < List.length rets)%nat -> nth i (map (fun x => (x - rmean g) / (s + e)) g) 0 = (nth i g 0 - rmean g) * / (s + e)).
  { intros i Hi. set (f := fun x => (x - rmean g) / (s + e)). transitivity (nth i (map f g) (f 0)); [apply nth_indep; rewrite map_length, LG; exact Hi|]. rewrite (map_nth f). reflexivity. }
  split; [exact LM|]. split; [|split; [|split]].
  - change (rmean (map (fun x => (x - rmean g) / (s + e)) g) = 0). rewrite normal_scale by exact NG. rewrite rmean_scal, centered by exact NG. ring.
  - rewrite map_map. change (rmean (map (fun x => (x - rmean g) / (s + e) * ((x - rmean g) / (s + e))) g) < 1).
    rewrite (rmean_ext _ (fun x => / (s + e) * / (s + e) * sq (x - rmean g))) by (intros; unfold Rdiv, sq; ring). rewrite rmean_scal.
    assert (V : rmean (map (fun x => sq (x - rmean g)) g) = s * s) by (unfold s, rstd; rewrite sqrt_sqrt; [reflexivity|apply var_nonneg; exact NG]). rewrite V.
    replace (/ (s + e) * / (s + e) * (s * s)) with ((s * / (s + e)) * (s * / (s + e))) by ring.
    assert (Q : 0 <= s * / (s + e) < 1). { split; [apply Rmult_le_pos; lra|]. apply Rmult_lt_reg_r with (s + e); [exact P|]. rewrite Rmult_assoc, Rinv_l by lra. lra. }
    nra.
  - intros i j Hi Hj. rewrite !NT by assumption. rewrite <- !G by assumption. split; intros H.
    + apply Rmult_lt_reg_r in H; [lra|exact I].
    + apply Rmult_lt_compat_r; [exact I|lra].
  - split.
    + intros H i j Hi Hj. rewrite <- !G by assumption. pose proof (H i Hi) as A. pose proof (H j Hj) as B. rewrite NT in A, B by assumption.
      apply Rmult_integral in A. apply Rmult_integral in B. destruct A; destruct B; lra.
    + intros H i Hi. rewrite NT by assumption. assert (M : rmean g = nth i g 0); [|rewrite M; ring].
      rewrite rmean_self. apply rmean_const; [exact NG|]. intros x Hx. destruct (In_nth _ _ 0 Hx) as [k [Hk Ek]]. rewrite <- Ek. rewrite LG in Hk. rewrite !G by assumption. apply H; assumption.
Qed.
Lemma advantage_single : forall r v, advantages [r] [v] = [0].
Proof.
  intros r v. destruct (advantages_facts [r] [v] ltac:(discriminate) eq_refl) as (L & _ & _ & _ & Z). cbn [List.length] in L, Z.
  destruct (advantages [r] [v]) as [|x [|y t]]; try discriminate L. f_equal. apply (proj2 Z) with (i := 0%nat); [|lia]. intros i j Hi Hj. replace i with 0%nat by lia. replace j with 0%nat by lia. reflexivity.
Qed.

(** ** First pass over the data: the new policy is the old one *)
Lemma first_pass : forall c l, 0 < c -> l <> [] -> (forall x, In x l -> p_new x = p_old x) ->
  ppo_pg c l = - avg (map p_adv l) /\ ppo_kl l = 0 /\ ppo_clipfrac c l = 0.
Proof.
  intros c l C N H. split; [|split].
  - unfold ppo_pg. rewrite (rmean_ext _ (fun x => -1 * p_adv x)). { rewrite rmean_scal. unfold rmean, avg, rsum. ring. }
    intros x Hx. unfold ppo_pg1. rewrite (H x Hx), ratio_same. rewrite (proj1 (proj2 (clip_within 1 (1 - c) (1 + c) ltac:(lra)))) by lra. rewrite Rmax_left; lra.
  - apply kl_facts; assumption.
  - unfold ppo_clipfrac. apply rmean_const; [exact N|]. intros x Hx. rewrite (H x Hx), ratio_same. replace (1 - 1) with 0 by ring. rewrite Rabs_R0. destruct (Rlt_dec c 0); [lra|reflexivity].
Qed.
Lemma first_slope : forall adv o c, 0 < c -> derivable_pt_lim (fun x => ppo_pg1 adv o x c) o adv /\ derivable_pt_lim (fun x => adv * x) o adv.
Proof.
  intros adv o c C. split.
  - assert (E : exp (o - o) = 1) by (replace (o - o) with 0 by ring; apply exp_0). destruct (pg1_slope adv o o c ltac:(lra)) as (_ & _ & A & B). rewrite E, Rmult_1_r in A, B.
    destruct (Rtotal_order adv 0) as [L|[Z|G]]; [apply B; lra| |apply A; lra]. subst adv. eapply derive_ext with (g := fun _ => 0); [intros; apply pg1_zero|apply derivable_pt_lim_const].
  - eapply derive_ext with (g := fun x => adv * x + 0); [intros; ring|apply derive_affine].
Qed.
Lemma single_slope : forall adv ret oldv o v ent c, 0 < c ->
  derivable_pt_lim (fun x => ppo_pg c [Prow adv ret oldv o x v ent]) o adv /\ derivable_pt_lim (fun x => a2c_pg [Prow adv ret oldv o x v ent]) o adv.
Proof.
  intros adv ret oldv o v ent c C. destruct (first_slope adv o c C) as [A B]. split.
  - eapply derive_ext; [|exact A]. intros y. unfold ppo_pg, rmean. cbn [map rsum fold_right List.length INR p_adv p_old p_new]. field.
  - eapply derive_ext; [|exact B]. intros y. unfold a2c_pg, rmean. cbn [map rsum fold_right List.length INR p_adv p_old p_new]. field.
Qed.
Lemma a2c_twice : forall l, a2c_vf l = 2 * ppo_vf None l.
Proof. intros l. unfold a2c_vf, ppo_vf. rewrite (rmean_ext (fun x => ppo_vf1 (p_v x) (p_oldv x) (p_ret x) None) (fun x => sq (p_v x - p_ret x))); [lra|]. intros x _. unfold ppo_vf1, ppo_vclip. apply Rmax_left. apply Rle_refl. Qed.

(** ** Gradients *)
Lemma norm_scale : forall k g, 0 <= k -> norm (map (fun x => k * x) g) = k * norm g.
Proof.
  intros k g K. unfold norm. rewrite map_map, !rsum_total. rewrite (total_ext _ (fun x => (k * k) * sq x)) by (intros; unfold sq; ring). rewrite total_scal.
  rewrite sqrt_mult_alt by (apply Rle_0_sqr). rewrite sqrt_square by exact K. reflexivity.
Qed.
Lemma clip_norm_facts : forall c g, 0 < c -> norm (clip_norm c g) = Rmin (norm g) c /\ (norm g <= c -> clip_norm c g = g) /\ exists k, 0 < k <= 1 /\ clip_norm c g = map (fun x => k * x) g.
Proof.
  intros c g C. assert (N0 : 0 <= norm g) by (unfold norm; apply sqrt_pos). pose proof (Rmax_r (norm g) c) as M.
  assert (E : clip_norm c g = map (fun x => c / Rmax (norm g) c * x) g) by (unfold clip_norm; apply map_ext; intros; unfold Rdiv; ring).
  assert (K : 0 < c / Rmax (norm g) c) by (apply Rdiv_lt_0_compat; lra). split; [|split].
  - rewrite E, norm_scale by lra. unfold Rmax, Rmin. destruct (Rle_dec (norm g) c); field; lra.
  - intros H. rewrite E. rewrite Rmax_right by exact H. rewrite <- (map_id g) at 2. apply map_ext. intros. field. lra.
  - exists (c / Rmax (norm g) c). split; [|exact E]. split; [exact K|]. apply Rmult_le_reg_r with (Rmax (norm g) c); [lra|]. unfold Rdiv. rewrite Rmult_assoc, Rinv_l by lra. lra.
Qed.
