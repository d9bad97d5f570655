(** The fronts are determined by the specification. *)
From Coq Require Import List Arith ZArith QArith Bool Lia Permutation.
From Verif Require Import Base Space_Model ND_Model ND_Spec ND_Proofs ND_Select NDL_Model NDL_Top.
Import ListNotations.
Open Scope nat_scope.

Lemma NoDup_concat_nth {A} : forall (ls : list (list A)) r F, NoDup (concat ls) -> nth_error ls r = Some F -> NoDup F.
Proof.
  induction ls as [|l ls IH]; intros [|r] F N E; simpl in *; try discriminate; apply NoDup_app_iff in N; destruct N as (A1 & B1 & _).
  - injection E as <-. auto.
  - eapply IH; eauto.
Qed.

Lemma levels_perm ws fa fb r F G : levels ws fa -> levels ws fb -> nth_error fa r = Some F -> nth_error fb r = Some G -> Permutation F G.
Proof.
  intros [Na La] [Nb Lb] HF HG. apply NoDup_Permutation; [exact (NoDup_concat_nth _ _ _ Na HF)|exact (NoDup_concat_nth _ _ _ Nb HG)|].
  intro x. rewrite (La _ _ HF), (Lb _ _ HG). reflexivity.
Qed.

Lemma perm_pointwise {A} : forall (fa fb : list (list A)), length fa = length fb ->
  (forall r F G, nth_error fa r = Some F -> nth_error fb r = Some G -> Permutation F G) -> Forall2 (@Permutation A) fa fb.
Proof.
  induction fa as [|F fa IH]; intros [|G fb] L H; simpl in L; try lia; constructor.
  - apply (H 0 F G); reflexivity.
  - apply IH; [lia|]. intros r. apply (H (S r)).
Qed.

Lemma concat_perm {A} (fa fb : list (list A)) : Forall2 (@Permutation A) fa fb -> Permutation (concat fa) (concat fb).
Proof. induction 1; simpl; [constructor|]. apply Permutation_app; auto. Qed.

Lemma nth_error_firstn {A} : forall n (l : list A) i, i < n -> nth_error (firstn n l) i = nth_error l i.
Proof. induction n; intros [|a l] [|i] H; simpl; auto; try lia. apply IHn. lia. Qed.

Lemma not_longer ws n k fa fb : levels ws fa -> levels ws fb -> just_enough n k fa -> just_enough n k fb -> length fb <= length fa.
Proof.
  intros A B [A1 A2] [B1 B2]. destruct (le_lt_dec (length fb) (length fa)) as [|Hlt]; auto. exfalso.
  assert (P : Forall2 (@Permutation nat) fa (firstn (length fa) fb)).
  { apply perm_pointwise. { rewrite firstn_length. lia. }
    intros r F G HF HG. assert (r < length fa) by (apply nth_error_Some; congruence).
    rewrite nth_error_firstn in HG by auto. exact (levels_perm _ _ _ _ _ _ A B HF HG). }
  apply concat_perm, Permutation_length in P.
  assert (length (concat (firstn (length fa) fb)) <= length (concat (removelast fb))).
  { rewrite removelast_firstn_len. replace (pred (length fb)) with (length fa + (pred (length fb) - length fa)) by lia.
    generalize (pred (length fb) - length fa) as e. generalize (length fa) as t. clear. intros t e.
    revert fb. induction t as [|t IH]; intros [|G fb]; simpl; try lia. rewrite !app_length. specialize (IH fb). lia. }
  lia.
Qed.

Lemma same_fronts ws n k fa fb : levels ws fa -> levels ws fb -> just_enough n k fa -> just_enough n k fb ->
  Forall2 (@Permutation nat) fa fb.
Proof.
  intros A B JA JB. apply perm_pointwise.
  - pose proof (not_longer _ _ _ _ _ A B JA JB). pose proof (not_longer _ _ _ _ _ B A JB JA). lia.
  - intros r F G HF HG. exact (levels_perm _ _ _ _ _ _ A B HF HG).
Qed.

Lemma sorts_agree ws m k fa fb : 2 <= m -> objectives m ws -> ws <> [] -> 0 < k ->
  sortLogNondominated ws k = Done fa -> sortNondominated ws k = Some fb -> Forall2 (@Permutation nat) fa fb.
Proof.
  intros Hm Ho Ne Hk EA EB. destruct (sortLog_levels ws m Hm Ho k Ne Hk) as (fa' & EA' & LA & JA).
  destruct (sort_levels ws m k Ho Ne Hk) as (fb' & EB' & LB & JB).
  rewrite EA in EA'. injection EA' as <-. rewrite EB in EB'. injection EB' as <-. exact (same_fronts _ _ _ _ _ LA LB JA JB).
Qed.

Lemma sort_seen ws m k fronts : objectives m ws -> ws <> [] -> 0 < k -> sortNondominated ws k = Some fronts ->
  (forall r F i j, nth_error fronts r = Some F -> In i F -> In j F -> ~ beats ws i j) /\
  (forall r F G j, nth_error fronts r = Some F -> nth_error fronts (S r) = Some G -> In j G -> exists i, In i F /\ beats ws i j) /\
  (forall F i, nth_error fronts 0 = Some F -> (In i F <-> i < length ws /\ forall j, ~ beats ws j i)).
Proof.
  intros Ho Ne Hk E. destruct (sort_levels ws m k Ho Ne Hk) as (f & E' & L & J). rewrite E in E'. injection E' as <-.
  split; [intros; eapply levels_mutual; eauto|]. split; [intros; eapply levels_next; eauto|intros; eapply levels_first; eauto].
Qed.

Lemma sort_partition ws m fronts : objectives m ws -> ws <> [] -> sortNondominated ws (length ws) = Some fronts ->
  Permutation (concat fronts) (seq 0 (length ws)).
Proof.
  intros Ho Ne E. assert (Hk : 0 < length ws) by (destruct ws; [congruence|simpl; lia]).
  destruct (sort_levels ws m _ Ho Ne Hk) as (f & E' & L & J). rewrite E in E'. injection E' as <-.
  destruct J as [J _]. rewrite Nat.min_id in J.
  apply NoDup_Permutation_bis; [exact (proj1 L)|rewrite seq_length; exact J|].
  intros i I. apply in_seq. pose proof (levels_lt _ _ _ L I). lia.
Qed.

Lemma isDominated_order m :
  (forall a, length a = m -> isDominated a a = false) /\
  (forall a b, length a = m -> length b = m -> isDominated a b = true -> isDominated b a = false) /\
  (forall a b c, length a = m -> length b = m -> length c = m ->
     isDominated a b = true -> isDominated b c = true -> isDominated a c = true).
Proof.
  split; [|split].
  - intros a L. destruct (isDominated a a) eqn:E; auto. apply isDominated_spec in E; auto. exfalso. exact (dominates_irrefl _ E).
  - intros a b La Lb E. destruct (isDominated b a) eqn:E2; auto. apply isDominated_spec in E; [|congruence]. apply isDominated_spec in E2; [|congruence].
    exfalso. exact (dominates_asym _ _ E E2).
  - intros a b c La Lb Lc E1 E2. apply isDominated_spec in E1; [|congruence]. apply isDominated_spec in E2; [|congruence].
    apply isDominated_spec; [congruence|]. eapply dominates_trans; eauto.
Qed.

Lemma nan_cycle : exists a b c : list fnum,
  (isDominated_nan a b = true /\ isDominated_nan b c = true /\ isDominated_nan c a = true) /\
  forall fuel k, 0 < k -> sortNondominated_nan fuel [a; b; c] k = None.
Proof.
  exists [Num 0; Num 1; NaN]%Q, [Num 1; NaN; Num 0]%Q, [NaN; Num 0; Num 1]%Q. split; [repeat split|]. exact nan_loops.
Qed.
