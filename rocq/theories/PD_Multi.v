(** Several categoricals, and independent bits. *)
From Coq Require Import List Arith ZArith Reals Lra Lia.
From Verif Require Import PD_Model PD_Spec PD_Proofs PD_Race.
Import ListNotations.
Open Scope R_scope.

(** ** Sums over tuples *)
Lemma total_app : forall l m, total (l ++ m) = total l + total m.
Proof. unfold total. induction l; intros; cbn [app fold_right]; [ring|]. rewrite IHl. ring. Qed.
Lemma total_tuples : forall (f : list nat -> R) (T : list (list nat)) A,
  total (map f (flat_map (fun a => map (cons a) T) A)) = total (map (fun a => total (map (fun x => f (a :: x)) T)) A).
Proof. intros f T A. induction A; [reflexivity|]. cbn [flat_map map]. rewrite map_app, total_app, map_map, IHA. reflexivity. Qed.

Definition sizes (ls : list (list R)) : list nat := map (@length R) ls.
Definition filled (ls : list (list R)) : Prop := Forall (fun l => l <> []) ls.
Lemma tuple_cons : forall l ls a x, tuple_prob (l :: ls) (a :: x) = prob l a * tuple_prob ls x.
Proof. reflexivity. Qed.
Lemma tuple_prob_pos : forall ls x, filled ls -> length x = length ls -> 0 < tuple_prob ls x.
Proof.
  induction ls; intros x F L; destruct x; try discriminate; [cbn; lra|]. inversion F; subst. rewrite tuple_cons. apply Rmult_lt_0_compat; [apply prob_pos; assumption|].
  apply IHls; [assumption|cbn in L; lia].
Qed.
Lemma in_tuples : forall nvec x, In x (tuples nvec) <-> Forall2 (fun a n => (a < n)%nat) x nvec.
Proof.
  induction nvec; intros x; cbn [tuples].
  - split; [intros [<-|[]]; constructor|intros H; inversion H; left; reflexivity].
  - rewrite in_flat_map. split.
    + intros [b [Hb Hx]]. apply in_map_iff in Hx. destruct Hx as [y [<- Hy]]. apply in_seq in Hb. constructor; [lia|]. apply IHnvec. exact Hy.
    + intros H. inversion H; subst. exists x0. split; [apply in_seq; lia|]. apply in_map. apply IHnvec. assumption.
Qed.
Lemma Forall2_length : forall {A B} (P : A -> B -> Prop) l m, Forall2 P l m -> length l = length m.
Proof. induction 1; cbn; congruence. Qed.
Lemma tuple_length : forall ls x, In x (tuples (sizes ls)) -> length x = length ls.
Proof. intros ls x H. apply in_tuples in H. apply Forall2_length in H. unfold sizes in H. rewrite map_length in H. exact H. Qed.
Lemma tuple_sum : forall ls, filled ls -> total (map (tuple_prob ls) (tuples (sizes ls))) = 1.
Proof.
  induction ls; intros F; [cbn; unfold tuple_prob; cbn; lra|]. inversion F; subst. cbn [sizes map tuples]. rewrite total_tuples.
  rewrite (total_ext _ (prob a)); [apply prob_sum; assumption|]. intros i _.
  rewrite (total_ext _ (fun x => prob a i * tuple_prob ls x)) by (intros; apply tuple_cons). rewrite total_scal. fold (sizes ls). rewrite IHls by assumption. ring.
Qed.
Lemma tuple_entropy : forall ls, filled ls ->
  - total (map (fun x => tuple_prob ls x * ln (tuple_prob ls x)) (tuples (sizes ls))) = total (map cat_entropy ls).
Proof.
  induction ls; intros F; [cbn; unfold tuple_prob; cbn; rewrite ln_1; lra|]. inversion F as [|? ? Ha Ft]; subst. cbn [sizes map tuples]. rewrite total_tuples.
  rewrite (total_ext _ (fun i => prob a i * ln (prob a i) + total (map (fun x => tuple_prob ls x * ln (tuple_prob ls x)) (tuples (sizes ls))) * prob a i)).
  - rewrite total_plus, (total_scal (prob a)), prob_sum by exact Ha. change (total (cat_entropy a :: map cat_entropy ls)) with (cat_entropy a + total (map cat_entropy ls)).
    rewrite <- IHls by exact Ft. rewrite cat_entropy_eq by exact Ha. unfold shannon. ring.
  - intros i _. rewrite (total_ext _ (fun x => prob a i * ln (prob a i) * tuple_prob ls x + prob a i * (tuple_prob ls x * ln (tuple_prob ls x)))).
    + rewrite total_plus, (total_scal (tuple_prob ls)), (total_scal (fun x => tuple_prob ls x * ln (tuple_prob ls x))). fold (sizes ls). rewrite tuple_sum by exact Ft. ring.
    + intros x Hx. rewrite tuple_cons. rewrite ln_mult; [ring|apply prob_pos; exact Ha|]. apply tuple_prob_pos; [exact Ft|apply tuple_length; exact Hx].
Qed.
Lemma tuple_kl : forall ls ms, filled ls -> sizes ms = sizes ls ->
  total (map (fun x => tuple_prob ls x * ln (tuple_prob ls x / tuple_prob ms x)) (tuples (sizes ls))) = total (map (fun lm => cat_kl (fst lm) (snd lm)) (combine ls ms)).
Proof.
  induction ls as [|a ls IH]; intros ms F S; destruct ms as [|b ms]; try discriminate S.
  { cbn. unfold tuple_prob; cbn. replace (1 / 1) with 1 by field. rewrite ln_1. lra. }
  inversion F as [|? ? Ha Ft]; subst. cbn in S. injection S as Sa St. fold (sizes ms) (sizes ls) in St.
  assert (Hb : b <> []) by (destruct b, a; cbn in *; congruence).
  assert (Fm : filled ms).
  { clear - Ft St. revert ms St. induction Ft; intros ms St; destruct ms; try discriminate; constructor.
    - cbn in St. injection St as E _. destruct l0, x; cbn in *; congruence.
    - apply IHFt. cbn in St. injection St. auto. }
  assert (Lm : length ms = length ls). { apply (f_equal (@length nat)) in St. unfold sizes in St. rewrite !map_length in St. exact St. }
  cbn [sizes map tuples combine]. rewrite total_tuples.
  rewrite (total_ext _ (fun i => prob a i * ln (prob a i / prob b i) + total (map (fun x => tuple_prob ls x * ln (tuple_prob ls x / tuple_prob ms x)) (tuples (sizes ls))) * prob a i)).
  - rewrite total_plus, (total_scal (prob a)), prob_sum by exact Ha. cbn [fst snd].
    rewrite IH by assumption.
    change (total (cat_kl a b :: map (fun lm => cat_kl (fst lm) (snd lm)) (combine ls ms))) with (cat_kl a b + total (map (fun lm => cat_kl (fst lm) (snd lm)) (combine ls ms))).
    rewrite cat_kl_eq by assumption. unfold divergence. ring.
  - intros i _. rewrite (total_ext _ (fun x => prob a i * ln (prob a i / prob b i) * tuple_prob ls x + prob a i * (tuple_prob ls x * ln (tuple_prob ls x / tuple_prob ms x)))).
    + rewrite total_plus, (total_scal (tuple_prob ls)), (total_scal (fun x => tuple_prob ls x * ln (tuple_prob ls x / tuple_prob ms x))). fold (sizes ls). rewrite tuple_sum by exact Ft. ring.
    + intros x Hx. rewrite !tuple_cons. pose proof (tuple_length _ _ Hx) as LX.
      assert (P1 : 0 < tuple_prob ls x) by (apply tuple_prob_pos; assumption). assert (P2 : 0 < tuple_prob ms x) by (apply tuple_prob_pos; [assumption|congruence]).
      pose proof (prob_pos a Ha i) as P3. pose proof (prob_pos b Hb i) as P4.
      replace (prob a i * tuple_prob ls x / (prob b i * tuple_prob ms x)) with (prob a i / prob b i * (tuple_prob ls x / tuple_prob ms x)) by (field; split; lra).
      rewrite ln_mult by (apply Rdiv_lt_0_compat; assumption). ring.
Qed.
(** Gibbs' inequality over any list. *)
Lemma gibbs_list : forall {A} (s : list A) (p q : A -> R), (forall x, In x s -> 0 < p x) -> (forall x, In x s -> 0 < q x) ->
  total (map p s) = 1 -> total (map q s) = 1 ->
  0 <= total (map (fun x => p x * ln (p x / q x)) s) /\ (total (map (fun x => p x * ln (p x / q x)) s) = 0 <-> forall x, In x s -> p x = q x).
Proof.
  intros A s p q Pp Pq Sp Sq.
  assert (D : total (map (fun i => p i - q i) s) = 0).
  { rewrite (total_ext _ (fun i => p i + -1 * q i)) by (intros; ring). rewrite total_plus, (total_scal q), Sp, Sq. ring. }
  split.
  - rewrite <- D. apply total_le. intros i Hi. apply gibbs_term; auto.
  - split.
    + intros E i Hi. apply gibbs_touch; auto. apply (total_eq_all (fun i => p i - q i) (fun i => p i * ln (p i / q i)) s); [intros; apply gibbs_term; auto|rewrite D; symmetry; exact E|exact Hi].
    + intros E. rewrite (total_ext _ (fun _ => 0)); [rewrite total_const; ring|]. intros i Hi. rewrite <- E by exact Hi. pose proof (Pp i Hi). unfold Rdiv. rewrite Rinv_r by lra. rewrite ln_1. ring.
Qed.

(** ** Several categoricals *)
Lemma split_at_iff : forall nvec flat ls, split_at nvec flat = Some ls <-> parts nvec flat ls.
Proof.
  induction nvec as [|n t IH]; intros flat ls; cbn [split_at].
  - split.
    + destruct flat; intros H; [|discriminate]. injection H as <-. split; reflexivity.
    + intros [-> E]. destruct ls; [reflexivity|discriminate].
  - destruct (Nat.ltb_spec (length flat) n) as [H|H].
    + split; [discriminate|]. intros [-> E]. destruct ls as [|l ls]; [discriminate|]. cbn in E, H. injection E as E _. rewrite app_length in H. lia.
    + split.
      * destruct (split_at t (skipn n flat)) as [r|] eqn:Er; intros X; [|discriminate]. injection X as <-. apply IH in Er. destruct Er as [E1 E2]. split.
        -- cbn. rewrite <- E1. symmetry. apply firstn_skipn.
        -- cbn. rewrite E2. f_equal. apply firstn_length_le. exact H.
      * intros [-> E]. destruct ls as [|l ls]; [discriminate|]. cbn in E. injection E as E1 E2. cbn [concat].
        rewrite <- E1. rewrite skipn_app, skipn_all, Nat.sub_diag. cbn [app skipn]. rewrite (proj2 (IH (concat ls) ls)) by (split; [reflexivity|exact E2]).
        rewrite firstn_app, firstn_all, Nat.sub_diag. cbn [firstn]. rewrite app_nil_r. reflexivity.
Qed.
Lemma add_n_some : forall {A} (f : A -> R) s, s <> [] -> add_n (map f s) = Some (total (map f s)).
Proof. intros A f [|x s] H; [congruence|reflexivity]. Qed.
Section Multi.
  Variables (nvec : list nat) (flat : list R) (ls : list (list R)).
  Hypothesis P : parts nvec flat ls.
  Hypothesis Pos : Forall (fun n => (0 < n)%nat) nvec.
  Hypothesis NE : nvec <> [].
  Lemma parts_sizes : sizes ls = nvec.
  Proof. destruct P as [_ E]. exact E. Qed.
  Lemma parts_filled : filled ls.
  Proof.
    unfold filled. destruct P as [_ E]. clear - E Pos. revert nvec E Pos. induction ls as [|l r IH]; intros nv E F; constructor.
    - subst. cbn in F. inversion F; subst. destruct l; [cbn in *; lia|congruence].
    - subst. cbn in F. inversion F; subst. eapply IH; [reflexivity|assumption].
  Qed.
  Lemma parts_ne : ls <> [].
  Proof. pose proof parts_sizes as E. intros ->. cbn in E. congruence. Qed.
  Lemma multi_neglogp_spec : forall x, In x (tuples nvec) ->
    exists v, multi_neglogp nvec flat (map Z.of_nat x) = Some v /\ exp (- v) = tuple_prob ls x.
  Proof.
    intros x Hx. unfold multi_neglogp. rewrite (proj2 (split_at_iff _ _ _) P). cbn [bind].
    rewrite <- parts_sizes in Hx. pose proof (tuple_length _ _ Hx) as LX. apply in_tuples in Hx.
    rewrite add_n_some.
    2:{ pose proof parts_ne. destruct ls, x; cbn in *; congruence. }
    eexists. split; [reflexivity|]. clear - Hx P Pos. pose proof parts_filled as F. clear P Pos. revert x Hx. induction ls as [|l r IH]; intros x Hx; inversion Hx; subst.
    - cbn. rewrite Ropp_0. unfold tuple_prob; cbn. apply exp_0.
    - cbn [map combine fst snd]. cbn [total fold_right]. inversion F; subst. rewrite Ropp_plus_distr, exp_plus, cat_neglogp_prob by assumption.
      rewrite tuple_cons. f_equal. apply IH; assumption.
  Qed.
  Lemma multi_sum : total (map (tuple_prob ls) (tuples nvec)) = 1.
  Proof. rewrite <- parts_sizes. apply tuple_sum. exact parts_filled. Qed.
  Lemma multi_entropy_spec : multi_entropy nvec flat = Some (- total (map (fun x => tuple_prob ls x * ln (tuple_prob ls x)) (tuples nvec))).
  Proof.
    unfold multi_entropy. rewrite (proj2 (split_at_iff _ _ _) P). cbn [bind]. rewrite add_n_some by exact parts_ne. f_equal. symmetry.
    rewrite <- parts_sizes. apply tuple_entropy. exact parts_filled.
  Qed.
  Lemma multi_mode_spec : exists x, multi_mode nvec flat = Some x /\ In x (tuples nvec) /\ forall y, In y (tuples nvec) -> tuple_prob ls y <= tuple_prob ls x.
  Proof.
    unfold multi_mode. rewrite (proj2 (split_at_iff _ _ _) P). cbn [bind]. pose proof parts_ne as NE'. pose proof parts_filled as F. rewrite <- parts_sizes.
    assert (G : exists x, all_some (map cat_mode ls) = Some x /\ In x (tuples (sizes ls)) /\ forall y, In y (tuples (sizes ls)) -> tuple_prob ls y <= tuple_prob ls x).
    { clear - F. induction F as [|l r Hl Hr IH].
      - exists []. split; [reflexivity|]. split; [left; reflexivity|]. intros y [<-|[]]. lra.
      - destruct (cat_mode_spec l Hl) as [i [E [Hi [B _]]]]. destruct IH as [x [Ex [Ix Bx]]]. exists (i :: x). cbn [map all_some]. rewrite E, Ex. split; [reflexivity|]. split.
        + apply in_tuples. constructor; [exact Hi|]. apply in_tuples. exact Ix.
        + intros y Hy. apply in_tuples in Hy. inversion Hy as [|b ? y' ? Hb Hy' ]; subst. rewrite !tuple_cons. assert (I2 : In y' (tuples (sizes r))) by (apply in_tuples; assumption).
          apply Rmult_le_compat; [apply Rlt_le, prob_pos; exact Hl|apply Rlt_le, tuple_prob_pos; [exact Hr|apply tuple_length; exact I2]|apply B; assumption|apply Bx; exact I2]. }
    destruct G as [x [E G]]. exists x. split; [|exact G]. destruct ls; [congruence|exact E].
  Qed.
  Lemma multi_sample_spec : forall us, Forall2 (fun u l => length u = length l) us ls ->
    exists x, multi_sample nvec flat us = Some x /\ In x (tuples nvec) /\ Forall2 (fun lu a => cat_sample (fst lu) (snd lu) = Some a) (combine ls us) x.
  Proof.
    intros us FU. unfold multi_sample. rewrite (proj2 (split_at_iff _ _ _) P). cbn [bind]. pose proof parts_ne as NE'. pose proof parts_filled as F. rewrite <- parts_sizes.
    assert (G : exists x, all_some (map (fun lu => cat_sample (fst lu) (snd lu)) (combine ls us)) = Some x /\ In x (tuples (sizes ls)) /\ Forall2 (fun lu a => cat_sample (fst lu) (snd lu) = Some a) (combine ls us) x).
    { clear - F FU. revert us FU. induction F as [|l r Hl Hr IH]; intros us FU; inversion FU; subst.
      - exists []. split; [reflexivity|]. split; [left; reflexivity|constructor].
      - destruct (cat_sample_valid l x Hl) as [i [E Hi]]; [assumption|]. destruct (IH l0) as [y [Ey [Iy By]]]; [assumption|]. exists (i :: y). cbn [combine map all_some fst snd]. rewrite E, Ey. split; [reflexivity|]. split.
        + apply in_tuples. constructor; [exact Hi|]. apply in_tuples. exact Iy.
        + constructor; assumption. }
    destruct G as [x [E G]]. exists x. split; [|exact G]. destruct ls; [congruence|exact E].
  Qed.
End Multi.
Lemma multi_kl_spec : forall nvec flat other ls ms, parts nvec flat ls -> parts nvec other ms -> Forall (fun n => (0 < n)%nat) nvec -> nvec <> [] ->
  exists v, multi_kl nvec flat other = Some v /\ v = total (map (fun x => tuple_prob ls x * ln (tuple_prob ls x / tuple_prob ms x)) (tuples nvec)) /\
    0 <= v /\ (v = 0 <-> forall x, In x (tuples nvec) -> tuple_prob ls x = tuple_prob ms x).
Proof.
  intros nvec flat other ls ms P1 P2 Pos NE. pose proof (parts_sizes _ _ _ P1) as S1. pose proof (parts_sizes _ _ _ P2) as S2.
  pose proof (parts_filled _ _ _ P1 Pos) as F1. pose proof (parts_filled _ _ _ P2 Pos) as F2.
  exists (total (map (fun x => tuple_prob ls x * ln (tuple_prob ls x / tuple_prob ms x)) (tuples nvec))). split; [|split; [reflexivity|]].
  - unfold multi_kl. rewrite (proj2 (split_at_iff _ _ _) P1), (proj2 (split_at_iff _ _ _) P2). cbn [bind]. rewrite add_n_some.
    + f_equal. rewrite <- S1. symmetry. apply tuple_kl; [exact F1|congruence].
    + destruct ls, ms; cbn in *; congruence.
  - apply gibbs_list.
    + intros x Hx. rewrite <- S1 in Hx. apply tuple_prob_pos; [exact F1|apply tuple_length; exact Hx].
    + intros x Hx. rewrite <- S2 in Hx. apply tuple_prob_pos; [exact F2|apply tuple_length; exact Hx].
    + rewrite <- S1. apply tuple_sum. exact F1.
    + rewrite <- S2. apply tuple_sum. exact F2.
Qed.
