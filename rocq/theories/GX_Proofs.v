(** The genetic algorithm of the input files: individuals stay in the space, who survives, and what raises. *)
From Coq Require Import List Arith ZArith QArith Bool Sorted Permutation Lia Lqa.
From Verif Require Import Base BaseFacts Space_Model Space_Spec Space_Facts Opt_Model Opt_Facts ES_Model ES_Spec ES_Proofs
  GX_Model GX_Spec.
Import ListNotations.
Open Scope nat_scope.

Definition okp (c : ga_card) (x s : list Q) : Prop := feasible (g_dims c) x /\ strat_int c s.
Definition okm (c : ga_card) (m : member) : Prop := okp c (m_ind m) (m_strat m).

Lemma trunc_eq : forall a b, (a == b)%Q -> trunc a = trunc b.
Proof.
  intros a b H. assert (trunc a <= trunc b)%Z by (apply trunc_mono; lra).
  assert (trunc b <= trunc a)%Z by (apply trunc_mono; lra). lia.
Qed.
Lemma trunc_is_int : forall q, is_int q -> (q == inject_Z (trunc q))%Q.
Proof. intros q (z & Hz). rewrite (trunc_eq _ _ Hz), trunc_Z. exact Hz. Qed.
Lemma trunc_succ : forall q, is_int q -> trunc (q + 1) = (trunc q + 1)%Z.
Proof.
  intros q (z & Hz). rewrite (trunc_eq _ _ Hz), trunc_Z.
  assert (E : (q + 1 == inject_Z (z + 1))%Q) by (rewrite Hz, inject_Z_plus; reflexivity).
  rewrite (trunc_eq _ _ E), trunc_Z. reflexivity.
Qed.

Lemma Forall2_exchanged : forall (V W : Type) (P : V -> W -> Prop) ds p q a b c d,
  Forall2 P ds a -> Forall2 P ds b -> exchanged p q a b c d -> Forall2 P ds c.
Proof.
  intros V W P ds p q a b c d Ha Hb (Lc & _ & H).
  assert (Hn : forall k x y, nth_error ds k = Some x -> nth_error c k = Some y -> P x y).
  { intros k x y Hx Hy. destruct (H k) as (H1 & H2).
    destruct (le_lt_dec p k), (lt_dec k q).
    - rewrite (proj1 (H1 ltac:(lia))) in Hy. clear -Hb Hx Hy. revert k Hx Hy.
      induction Hb; intros [|k] Hx Hy; cbn in *; try discriminate; [congruence|eauto].
    - rewrite (proj1 (H2 ltac:(lia))) in Hy. clear -Ha Hx Hy. revert k Hx Hy.
      induction Ha; intros [|k] Hx Hy; cbn in *; try discriminate; [congruence|eauto].
    - rewrite (proj1 (H2 ltac:(lia))) in Hy. clear -Ha Hx Hy. revert k Hx Hy.
      induction Ha; intros [|k] Hx Hy; cbn in *; try discriminate; [congruence|eauto].
    - rewrite (proj1 (H2 ltac:(lia))) in Hy. clear -Ha Hx Hy. revert k Hx Hy.
      induction Ha; intros [|k] Hx Hy; cbn in *; try discriminate; [congruence|eauto]. }
  assert (L : length ds = length c).
  { rewrite Lc. clear -Ha. induction Ha; cbn; auto. }
  clear -Hn L. revert c L Hn. induction ds as [|x ds IH]; intros [|y c] L Hn; cbn in L; try discriminate; constructor.
  - apply (Hn 0); reflexivity.
  - apply IH; [lia|]. intros k u v Hu Hv. apply (Hn (S k)); assumption.
Qed.
Lemma Forall2_len : forall (V W : Type) (P : V -> W -> Prop) a b, Forall2 P a b -> length a = length b.
Proof. intros V W P a b H. induction H; cbn; auto. Qed.

Section One.
Context (expf : Q -> Q) (tau tau' : nat -> Q) (c : ga_card).
Context (W : wf_dims (g_dims c)) (Hs : (g_smin c < g_smax c)%Q).

Lemma mut_coord_ok : forall n dr i d x s y t,
  (d_lo d <= d_hi d)%Q /\ (d_int d = true -> is_int (d_lo d) /\ is_int (d_hi d)) ->
  (d_lo d <= x)%Q /\ (x <= d_hi d)%Q /\ (d_int d = true -> is_int x) ->
  ga_mut_coord expf tau tau' c n dr i d x s = Some (y, t) ->
  ((d_lo d <= y)%Q /\ (y <= d_hi d)%Q /\ (d_int d = true -> is_int y)) /\
  (d_int d = true -> (g_smin c <= t)%Q /\ (t <= g_smax c)%Q).
Proof.
  intros n dr i d x s y t (Hd1 & Hd2) (Hx1 & Hx2 & Hx3) H. unfold ga_mut_coord in H.
  destruct (d_int d) eqn:E.
  - destruct (Hd2 eq_refl) as (Hlo & Hhi).
    destruct (_ || _); [discriminate|]. cbv zeta in H. destruct (Qeq_bool _ 0); [discriminate|].
    match type of H with context [reflect (g_smin c) (g_smax c) ?q] =>
      pose proof (reflect_ok (g_smin c) (g_smax c) q Hs) as R; set (s2 := reflect (g_smin c) (g_smax c) q) in * end.
    clearbody s2. destruct (Qltb _ _); [|inversion H; subst; auto].
    destruct (Z.eqb_spec (trunc (d_lo d)) (trunc (d_hi d))) as [He|He].
    + inversion H; subst. split; [|auto]. pose proof (trunc_is_int _ Hlo) as Ql.
      split; [rewrite <- Ql; lra|]. split; [rewrite <- Ql; exact Hd1|]. intros _. eexists; reflexivity.
    + destruct (Qeq_bool x _); [|discriminate].
      destruct (zremove _ _) as [l|] eqn:El; [|discriminate]. destruct (choice l _) as [z|] eqn:Ez; [|discriminate].
      inversion H; subst. split; [|auto].
      apply choice_In in Ez. apply (zremove_In _ _ _ (zrange_NoDup _ _) El) in Ez. destruct Ez as (Ez & _).
      apply in_zrange in Ez. rewrite (trunc_succ _ Hhi) in Ez.
      pose proof (trunc_is_int _ Hlo) as Ql. pose proof (trunc_is_int _ Hhi) as Qh.
      split; [rewrite Ql, <- Zle_Qle; lia|]. split; [rewrite Qh, <- Zle_Qle; lia|]. intros _. eexists; reflexivity.
  - cbv zeta in H. inversion H; subst. split; [|discriminate].
    destruct (Qltb (x + _)%Q (d_lo d)) eqn:E1.
    + destruct (Qltb (d_hi d) (d_lo d)) eqn:E2; qprop; repeat split; try lra; discriminate.
    + match goal with |- context [Qltb (d_hi d) ?u] => destruct (Qltb (d_hi d) u) eqn:E2 end;
        qprop; repeat split; try lra; discriminate.
Qed.

Lemma mut_from_ok : forall n dr ds v, Forall2 (fun d x => (d_lo d <= x)%Q /\ (x <= d_hi d)%Q /\ (d_int d = true -> is_int x)) ds v ->
  Forall (fun d => (d_lo d <= d_hi d)%Q /\ (d_int d = true -> is_int (d_lo d) /\ is_int (d_hi d))) ds ->
  forall i st v' st', length st = length ds -> ga_mut_from expf tau tau' c n dr i ds v st = Some (v', st') ->
  Forall2 (fun d x => (d_lo d <= x)%Q /\ (x <= d_hi d)%Q /\ (d_int d = true -> is_int x)) ds v' /\
  Forall2 (fun d s => d_int d = true -> (g_smin c <= s)%Q /\ (s <= g_smax c)%Q) ds st'.
Proof.
  intros n dr ds v H. induction H as [|d x ds v Hx H IH]; intros HF i st v' st' L E; cbn in E.
  - injection E as <- <-. destruct st; [|discriminate]. split; constructor.
  - destruct st as [|s st]; [discriminate|]. inversion HF; subst.
    destruct (ga_mut_coord expf tau tau' c n dr i d x s) as [[y t]|] eqn:E1; [|discriminate].
    destruct (ga_mut_from expf tau tau' c n dr (S i) ds v st) as [[ys ts]|] eqn:E2; [|discriminate].
    injection E as <- <-. apply (mut_coord_ok n dr i d x s y t) in E1; auto.
    cbn in L. destruct (IH ltac:(auto) (S i) st ys ts ltac:(lia) E2) as (I1 & I2). split; constructor; tauto.
Qed.

Lemma one_ok : forall dr pop x s, Forall (okm c) pop ->
  ga_one expf tau tau' c dr pop = Some (x, s) -> okp c x s.
Proof.
  intros dr pop x s HP H. unfold ga_one in H. destruct (Qltb (od_rn dr) (g_cxpb c)).
  - destruct (length pop <? 2); [discriminate|]. cbv zeta in H.
    set (a := od_i dr mod length pop) in H.
    set (b := if od_j dr mod (length pop - 1) <? a then _ else _) in H.
    destruct (nth_error pop a) as [m1|] eqn:E1; [|discriminate].
    destruct (nth_error pop b) as [m2|] eqn:E2; [|discriminate].
    apply nth_error_In in E1. apply nth_error_In in E2. rewrite Forall_forall in HP.
    destruct (HP _ E1) as (F1 & S1). destruct (HP _ E2) as (F2 & S2).
    destruct (cxES2point (od_r1 dr) (od_r2 dr) (m_ind m1) (m_ind m2) (m_strat m1) (m_strat m2))
      as [[[[c1 c2] t1] t2]|] eqn:Ec; [|discriminate]. injection H as <- <-.
    destruct (le_lt_dec 2 (length (m_ind m1))) as [Hl|Hl].
    + pose proof (Forall2_len _ _ _ _ _ F1) as L1. pose proof (Forall2_len _ _ _ _ _ F2) as L2.
      pose proof (Forall2_len _ _ _ _ _ S1) as L3. pose proof (Forall2_len _ _ _ _ _ S2) as L4.
      destruct (two_point (od_r1 dr) (od_r2 dr) (m_ind m1) (m_ind m2) (m_strat m1) (m_strat m2) (length (m_ind m1)))
        as (p & q & d1 & d2 & u1 & u2 & Ed & _ & _ & _ & X1 & X2); try lia.
      rewrite Ec in Ed. injection Ed as <- <- <- <-.
      split; [exact (Forall2_exchanged _ _ _ _ _ _ _ _ _ _ F1 F2 X1)|exact (Forall2_exchanged _ _ _ _ _ _ _ _ _ _ S1 S2 X2)].
    + rewrite two_point_short in Ec by exact Hl. discriminate.
  - destruct (choice pop (od_i dr)) as [m|] eqn:E; [|discriminate]. apply choice_In in E.
    rewrite Forall_forall in HP. destruct (HP _ E) as (F1 & S1).
    destruct (Qltb (od_rn dr) (g_cxpb c + g_mutpb c)).
    + apply mut_from_ok in H; [split; apply H|exact F1|exact W|]. symmetry. exact (Forall2_len _ _ _ _ _ S1).
    + injection H as <- <-. split; assumption.
Qed.

Lemma offspring_ok : forall drs pop, Forall (okm c) pop -> forall todo k os,
  ga_offspring expf tau tau' c drs k todo pop = Some os ->
  length os = todo /\ Forall (fun o => okp c (fst o) (snd o)) os.
Proof.
  intros drs pop HP. induction todo as [|t IH]; intros k os H; cbn in H.
  - injection H as <-. split; [reflexivity|constructor].
  - destruct (ga_one expf tau tau' c (drs k) pop) as [[x s]|] eqn:E1; [|discriminate].
    destruct (ga_offspring expf tau tau' c drs (S k) t pop) as [os'|] eqn:E2; [|discriminate].
    injection H as <-. destruct (IH _ _ E2) as (I1 & I2). split; [cbn; lia|]. constructor; [|exact I2].
    exact (one_ok _ _ _ _ HP E1).
Qed.
End One.

(** ** Evaluation and selection. *)
Lemma evaluate_len : forall fit os k, length (ga_evaluate fit k os) = length os.
Proof. intros fit. induction os as [|[x s] os IH]; intros k; cbn; auto. Qed.
Lemma evaluate_ok : forall c fit os k, Forall (fun o => okp c (fst o) (snd o)) os -> Forall (okm c) (ga_evaluate fit k os).
Proof.
  intros c fit. induction os as [|[x s] os IH]; intros k H; cbn; [constructor|]. inversion H; subst. constructor; auto.
Qed.
Lemma evaluate_nth : forall fit os k i m, nth_error (ga_evaluate fit k os) i = Some m -> m_fit m = fit (k + i) (m_ind m).
Proof.
  intros fit. induction os as [|[x s] os IH]; intros k [|i] m H; cbn in H; try discriminate.
  - injection H as <-. rewrite Nat.add_0_r. reflexivity.
  - apply IH in H. rewrite H. f_equal. lia.
Qed.

Lemma select_best_of : forall off mu, best_of mu off (select off mu).
Proof.
  intros off mu. exists (skipn mu (sort_desc m_fit off)). unfold select.
  pose proof (sort_desc_sorted m_fit off) as S. rewrite <- (firstn_skipn mu (sort_desc m_fit off)) in S.
  split; [rewrite firstn_skipn; symmetry; apply sort_desc_perm|].
  split; [rewrite firstn_length, sort_desc_length; reflexivity|].
  clear -S. revert S. generalize (skipn mu (sort_desc m_fit off)) as r. generalize (firstn mu (sort_desc m_fit off)) as l.
  induction l as [|a l IH]; intros r S; [split; [constructor|intros ? ? []]|]. cbn in S. inversion S as [|? ? S1 S2]; subst.
  destruct (IH r S1) as (I1 & I2). rewrite Forall_forall in S2. split.
  - constructor; [exact I1|]. apply Forall_forall. intros x Hx. apply S2. apply in_app_iff. auto.
  - intros x y [<-|Hx] Hy; [|eauto]. apply S2. apply in_app_iff. auto.
Qed.

(** ** Rows of the dataset. *)
Lemma remove_NoDup : forall a l, NoDup l -> NoDup (remove Nat.eq_dec a l).
Proof.
  intros a l H. induction H as [|x l Hx H IH]; cbn; [constructor|].
  destruct (Nat.eq_dec a x); [exact IH|]. constructor; [|exact IH]. intros Hin. apply in_remove in Hin. tauto.
Qed.
Lemma sample_ok : forall k pool raws i is, NoDup pool -> sample_from pool raws i k = Some is ->
  NoDup is /\ length is = k /\ incl is pool.
Proof.
  induction k as [|k IH]; intros pool raws i is Hn H; cbn in H.
  - injection H as <-. split; [constructor|]. split; [reflexivity|]. intros x [].
  - destruct (choice pool (raws i)) as [a|] eqn:Ea; [|discriminate].
    destruct (sample_from (remove Nat.eq_dec a pool) raws (S i) k) as [t|] eqn:Et; [|discriminate].
    injection H as <-. destruct (IH _ _ _ _ (remove_NoDup a pool Hn) Et) as (I1 & I2 & I3). apply choice_In in Ea.
    split; [|split].
    + constructor; [|exact I1]. intros Hin. apply I3 in Hin. apply in_remove in Hin. tauto.
    + cbn. lia.
    + intros x [<-|Hx]; [exact Ea|]. apply I3 in Hx. apply in_remove in Hx. tauto.
Qed.
Lemma remove_length : forall a l, NoDup l -> In a l -> S (length (remove Nat.eq_dec a l)) = length l.
Proof.
  intros a l H. induction H as [|x l Hx H IH]; intros Hin; [destruct Hin|]. cbn.
  destruct (Nat.eq_dec a x) as [<-|E].
  - f_equal. clear -Hx. induction l as [|y l IH]; cbn; [reflexivity|]. destruct (Nat.eq_dec a y) as [<-|E].
    + exfalso. apply Hx. left. reflexivity.
    + cbn. rewrite IH; [reflexivity|]. intros H. apply Hx. right. exact H.
  - cbn. rewrite IH; [reflexivity|]. destruct Hin as [Hin|Hin]; [congruence|exact Hin].
Qed.
Lemma sample_total : forall k pool raws i, NoDup pool -> k <= length pool -> exists is, sample_from pool raws i k = Some is.
Proof.
  induction k as [|k IH]; intros pool raws i Hn Hk; cbn; [eauto|].
  destruct (choice_total pool (raws i)) as (a & Ea); [intros ->; cbn in Hk; lia|]. rewrite Ea.
  pose proof (remove_length a pool Hn (choice_In _ _ _ Ea)) as L.
  destruct (IH (remove Nat.eq_dec a pool) raws (S i) (remove_NoDup a pool Hn) ltac:(lia)) as (is & ->). eauto.
Qed.

Lemma rows_at_spec : forall rows is rs, rows_at rows is = Some rs ->
  length rs = length is /\ forall i k, nth_error is i = Some k -> exists r, nth_error rows k = Some r /\ nth_error rs i = Some r.
Proof.
  intros rows. induction is as [|k is IH]; intros rs H; cbn in H.
  - injection H as <-. split; [reflexivity|]. intros [|i] k Hk; discriminate.
  - destruct (nth_error rows k) as [r|] eqn:Er; [|discriminate].
    destruct (rows_at rows is) as [t|] eqn:Et; [|discriminate]. injection H as <-.
    destruct (IH _ eq_refl) as (I1 & I2). split; [cbn; lia|]. intros [|i] j Hj; cbn in *.
    + injection Hj as <-. eauto.
    + eauto.
Qed.
Lemma rows_at_total : forall rows is, incl is (seq 0 (length rows)) -> exists rs, rows_at rows is = Some rs.
Proof.
  intros rows. induction is as [|k is IH]; intros H; cbn; [eauto|].
  assert (Hk : k < length rows) by (specialize (H k ltac:(left; reflexivity)); apply in_seq in H; lia).
  destruct (nth_error rows k) as [r|] eqn:E; [|apply nth_error_None in E; lia].
  destruct IH as (rs & ->); [|eauto]. intros x Hx. apply H. right. exact Hx.
Qed.

Lemma replace_spec : forall rows pop i pop', replace_last pop rows i = Some pop' ->
  length pop' = length pop /\ (rows <> [] -> i + length rows <= length pop) /\
  (forall j, j < length pop - (i + length rows) \/ length pop - i <= j -> nth_error pop' j = nth_error pop j) /\
  (forall q r, nth_error rows q = Some r -> exists m,
     nth_error pop (length pop - S (i + q)) = Some m /\
     nth_error pop' (length pop - S (i + q)) = Some (Mem r (m_strat m) (m_fit m))).
Proof.
  induction rows as [|r rows IH]; intros pop i pop' H; cbn [replace_last] in H.
  - injection H as <-. split; [reflexivity|]. split; [congruence|]. split; [reflexivity|]. intros [|q] r Hr; discriminate.
  - destruct (length pop <? S i) eqn:E; [discriminate|]. apply Nat.ltb_ge in E.
    destruct (nth_error pop (length pop - S i)) as [m|] eqn:Em; [|discriminate].
    apply IH in H. rewrite length_set_nth in H. destruct H as (H1 & H2 & H3 & H4).
    split; [exact H1|]. split; [|split].
    + intros _. destruct rows as [|r2 rows]; [cbn; lia|]. specialize (H2 ltac:(discriminate)). cbn in *. lia.
    + intros j Hj. rewrite H3 by (cbn [length] in Hj; lia). rewrite nth_error_set_nth.
      destruct (Nat.eqb_spec j (length pop - S i)) as [->|Hne].
      * cbn [length] in Hj. exfalso. lia.
      * cbn [andb]. reflexivity.
    + intros [|q] r' Hq; cbn in Hq.
      * injection Hq as <-. rewrite Nat.add_0_r. exists m. split; [exact Em|].
        rewrite H3 by lia. rewrite nth_error_set_nth, Nat.eqb_refl. cbn [andb].
        destruct (Nat.ltb_spec (length pop - S i) (length pop)); [reflexivity|lia].
      * destruct (H4 q r' Hq) as (m2 & A & B). replace (i + S q) with (S i + q) by lia. exists m2. split; [|exact B].
        rewrite nth_error_set_nth in A.
        assert (Hq2 : q < length rows) by (apply nth_error_Some; congruence).
        assert (S i + length rows <= length pop) by (apply H2; intros ->; destruct q; discriminate).
        destruct (Nat.eqb_spec (length pop - S (S i + q)) (length pop - S i)) as [Heq|Hne]; [lia|]. exact A.
Qed.
Lemma replace_total : forall rows pop i, i + length rows <= length pop -> exists pop', replace_last pop rows i = Some pop'.
Proof.
  induction rows as [|r rows IH]; intros pop i H; cbn [replace_last]; [eauto|]. cbn in H.
  destruct (length pop <? S i) eqn:E; [apply Nat.ltb_lt in E; lia|].
  destruct (nth_error pop (length pop - S i)) as [m|] eqn:Em; [|apply nth_error_None in Em; lia].
  apply IH. rewrite length_set_nth. lia.
Qed.

Lemma update_spec : forall c raws off pop', kbs_update c raws (select off (g_mu c)) = Some pop' ->
  next_parents c off pop'.
Proof.
  intros c raws off pop' H. exists (select off (g_mu c)). split; [apply select_best_of|].
  unfold kbs_update in H. destruct (g_kbs c) as [[rows frac]|]; [|congruence].
  destruct (kbs_count c frac <? 0)%Z eqn:E; [discriminate|]. apply Z.ltb_ge in E. split; [exact E|].
  destruct (sample_from _ _ _ _) as [is|] eqn:Es; [|discriminate].
  apply sample_ok in Es; [|apply seq_NoDup]. destruct Es as (S1 & S2 & S3).
  set (kept := select off (g_mu c)) in *. destruct kept as [|m0 kt] eqn:Ek; [discriminate|]. rewrite <- Ek in *. clear Ek m0 kt.
  destruct (rows_at rows is) as [rs|] eqn:Er; [|discriminate]. apply rows_at_spec in Er. destruct Er as (R1 & R2).
  apply replace_spec in H. destruct H as (H1 & H2 & H3 & H4). cbn [Nat.add] in *.
  exists is. split; [exact S1|]. split; [exact S2|]. split.
  { destruct rs as [|r rs]; [cbn in R1; lia|]. specialize (H2 ltac:(discriminate)). cbn in *. lia. }
  split; [exact H1|]. split.
  - intros j Hj. apply H3. left. rewrite R1, S2. exact Hj.
  - intros i r Hi. destruct (R2 i r Hi) as (row & A & B). destruct (H4 i row B) as (m & M1 & M2).
    exists (Mem row (m_strat m) (m_fit m)), m, row. cbn. auto.
Qed.

(** ** A generation. *)
Lemma gen_inv : forall expf tau tau' c fit g drs raws pop gen pop',
  ga_gen expf tau tau' c fit g drs raws pop = Some (gen, pop') ->
  exists os, ga_offspring expf tau tau' c drs 0 (ga_lambda c) pop = Some os /\
    gn_parents gen = pop /\ gn_offspring gen = ga_evaluate fit (g * ga_lambda c) os /\ g_freq c <> 0 /\
    kbs_update c raws (select (gn_offspring gen) (g_mu c)) = Some pop' /\
    (if (g mod g_freq c =? 0) || (g =? g_ngen c)
     then exists m t, select (gn_offspring gen) (g_mu c) = m :: t /\ gn_report gen = Some (max_fit (m_fit m) t)
     else gn_report gen = None).
Proof.
  intros expf tau tau' c fit g drs raws pop gen pop' H. unfold ga_gen in H.
  destruct (ga_offspring _ _ _ _ _ _ _ _) as [os|]; [|discriminate]. cbv zeta in H. exists os. split; [reflexivity|].
  destruct (g_freq c) as [|fr]; [discriminate|].
  destruct ((g mod S fr =? 0) || (g =? g_ngen c)) eqn:E; cbv beta iota in H.
  - destruct (select (ga_evaluate fit (g * ga_lambda c) os) (g_mu c)) as [|m t] eqn:Es; [discriminate|].
    destruct (kbs_update c raws (m :: t)) as [p|] eqn:Eu; [|discriminate]. injection H as <- <-. cbn.
    rewrite Es. repeat split; auto. eauto.
  - destruct (kbs_update c raws (select (ga_evaluate fit (g * ga_lambda c) os) (g_mu c))) as [p|] eqn:Eu; [|discriminate].
    injection H as <- <-. cbn. repeat split; auto.
Qed.

Lemma next_ok : forall c off pop', sound c -> Forall (okm c) off -> next_parents c off pop' -> Forall (okm c) pop'.
Proof.
  intros c off pop' (_ & _ & _ & _ & Hk) Ho (kept & (rest & P & _) & H).
  assert (Hkept : Forall (okm c) kept).
  { apply (Permutation_Forall P) in Ho. apply Forall_app in Ho. tauto. }
  destruct (g_kbs c) as [[rows frac]|] eqn:E; [|congruence]. specialize (Hk rows frac eq_refl).
  destruct H as (_ & is & N1 & N2 & N3 & N4 & N5 & N6). rewrite Forall_forall in *. intros m Hm.
  apply In_nth_error in Hm. destruct Hm as (j & Hj).
  assert (Hjl : j < length kept) by (rewrite <- N4; apply nth_error_Some; congruence).
  set (k := Z.to_nat (kbs_count c frac)) in *.
  destruct (lt_dec j (length kept - k)) as [Hd|Hd].
  - rewrite N5 in Hj by exact Hd. apply Hkept. eapply nth_error_In; eauto.
  - assert (Hi : length kept - S j < length is) by lia.
    destruct (nth_error is (length kept - S j)) as [r|] eqn:Er; [|apply nth_error_None in Er; lia].
    destruct (N6 _ _ Er) as (m1 & m' & row & A & B & C & D & F).
    replace (length kept - S (length kept - S j)) with j in A, B by lia. rewrite A in Hj. injection Hj as <-.
    split.
    + rewrite D. apply Hk. eapply nth_error_In; eauto.
    + rewrite F. apply (Hkept m'). eapply nth_error_In; eauto.
Qed.

Lemma init_ok : forall c ini, sound c -> units ini -> forall todo k os,
  init_from c ini k todo = Some os -> length os = todo /\ Forall (fun o => okp c (fst o) (snd o)) os.
Proof.
  intros c ini (W & H0 & H1 & H2 & Hk) Hu. induction todo as [|t IH]; intros k os H; cbn in H.
  - injection H as <-. split; [reflexivity|constructor].
  - destruct (GenES c (ini k)) as [[x s]|] eqn:E; [|discriminate].
    destruct (init_from c ini (S k) t) as [os'|] eqn:E2; [|discriminate]. injection H as <-.
    destruct (IH _ _ E2) as (I1 & I2). split; [cbn; lia|]. constructor; [|exact I2]. cbn.
    assert (St : strat_int c (map (fun i => uniform (g_smin c) (g_smax c) (id_s (ini k) i)) (seq 0 (length (g_dims c))))).
    { unfold strat_int. generalize 0 as a. generalize (g_dims c) as ds.
      induction ds as [|d ds IHd]; intros a; cbn; constructor; auto. intros _.
      destruct (Hu k a) as (_ & _ & U1 & U2). unfold uniform. split; nra. }
    unfold GenES in E. destruct (g_kbs c) as [[rows frac]|] eqn:Ek.
    + destruct (ga_lambda c <? length rows); [|discriminate]. destruct (choice rows (id_row (ini k))) as [r|] eqn:Ec; [|discriminate].
      injection E as <- <-. split; [|exact St]. apply choice_In in Ec. specialize (Hk rows frac eq_refl).
      rewrite Forall_forall in Hk. auto.
    + destruct (gen_ind (g_dims c) (ini k) 0) as [v|] eqn:Ev; [|discriminate]. injection E as <- <-. split; [|exact St].
      clear -W Ev Hu. unfold feasible. revert v Ev. unfold wf_dims in W. generalize 0 as a.
      induction W as [|d ds (Hd1 & Hd2) W IHd]; intros a v Ev; cbn in Ev.
      * injection Ev as <-. constructor.
      * destruct (d_int d) eqn:Ed.
        -- unfold randint_incl in Ev. destruct (trunc (d_lo d) <=? trunc (d_hi d))%Z eqn:Et; [|discriminate].
           destruct (gen_ind ds (ini k) (S a)) as [v'|] eqn:Ev'; [|discriminate]. injection Ev as <-.
           constructor; [|eapply IHd; eauto]. destruct (Hd2 eq_refl) as (L1 & L2). apply Z.leb_le in Et.
           pose proof (trunc_is_int _ L1) as Q1. pose proof (trunc_is_int _ L2) as Q2.
           pose proof (Z.mod_pos_bound (id_int (ini k) a) (trunc (d_hi d) + 1 - trunc (d_lo d)) ltac:(lia)).
           split; [rewrite Q1 at 1; rewrite <- Zle_Qle; lia|]. split; [rewrite Q2 at 2; rewrite <- Zle_Qle; lia|].
           intros _. eexists; reflexivity.
        -- destruct (gen_ind ds (ini k) (S a)) as [v'|] eqn:Ev'; [|discriminate]. injection Ev as <-.
           constructor; [|eapply IHd; eauto]. destruct (Hu k a) as (U1 & U2 & _). unfold uniform.
           split; [nra|]. split; [nra|]. congruence.
Qed.

Lemma init_pop_ok : forall c fit ini pop, sound c -> units ini -> init_pop c fit ini = Some pop ->
  length pop = ga_lambda c /\ Forall (okm c) pop.
Proof.
  intros c fit ini pop Hs Hu H. unfold init_pop in H. destruct (init_from c ini 0 (ga_lambda c)) as [os|] eqn:E; [|discriminate].
  injection H as <-. destruct (init_ok c ini Hs Hu _ _ _ E) as (L & F). rewrite evaluate_len.
  split; [exact L|]. apply evaluate_ok. exact F.
Qed.

Lemma gens_ok : forall expf tau tau' c fit drs raws, sound c -> forall todo g pop l,
  Forall (okm c) pop -> ga_gens expf tau tau' c fit drs raws g todo pop = Some l ->
  length l = todo /\ succession c pop l /\
  (forall i gen, nth_error l i = Some gen ->
     length (gn_offspring gen) = ga_lambda c /\ Forall (okm c) (gn_offspring gen) /\
     (forall j m, nth_error (gn_offspring gen) j = Some m -> m_fit m = fit ((g + i) * ga_lambda c + j) (m_ind m)) /\
     (if ((g + i) mod g_freq c =? 0) || (g + i =? g_ngen c)
      then exists m t, select (gn_offspring gen) (g_mu c) = m :: t /\ gn_report gen = Some (max_fit (m_fit m) t)
      else gn_report gen = None)).
Proof.
  intros expf tau tau' c fit drs raws Hs. induction todo as [|t IH]; intros g pop l HP H; cbn in H.
  - injection H as <-. split; [reflexivity|]. split; [constructor|]. intros [|i] gen Hg; discriminate.
  - destruct (ga_gen expf tau tau' c fit g (drs g) (raws g) pop) as [[gen pop']|] eqn:E; [|discriminate].
    destruct (ga_gens expf tau tau' c fit drs raws (S g) t pop') as [l'|] eqn:E2; [|discriminate]. injection H as <-.
    apply gen_inv in E. destruct E as (os & Eo & Ep & Eoff & Ef & Eu & Er).
    destruct (offspring_ok expf tau tau' c (proj1 Hs) ltac:(apply Hs) _ _ HP _ _ _ Eo) as (Lo & Fo).
    assert (Fm : Forall (okm c) (gn_offspring gen)) by (rewrite Eoff; apply evaluate_ok; exact Fo).
    apply update_spec in Eu. pose proof (next_ok c _ _ Hs Fm Eu) as Hnext.
    destruct (IH (S g) pop' l' Hnext E2) as (I1 & I2 & I3). split; [cbn; lia|]. split; [econstructor; eauto|].
    intros [|i] gen' Hg; cbn in Hg.
    + injection Hg as <-. rewrite Nat.add_0_r. split; [rewrite Eoff, evaluate_len; exact Lo|]. split; [exact Fm|].
      split; [|exact Er]. intros j m Hm. rewrite Eoff in Hm. apply evaluate_nth in Hm. exact Hm.
    + replace (g + S i) with (S g + i) by lia. auto.
Qed.

Lemma build_ga : forall expf tau tau' c fit ini drs raws pop l, sound c -> units ini ->
  ga_build expf tau tau' c fit ini drs raws = Some (pop, l) ->
  length pop = ga_lambda c /\ Forall (okm c) pop /\
  length l = g_ngen c /\ succession c pop l /\
  (forall i gen, nth_error l i = Some gen ->
     length (gn_offspring gen) = ga_lambda c /\ Forall (okm c) (gn_offspring gen) /\
     (forall j m, nth_error (gn_offspring gen) j = Some m -> m_fit m = fit (S i * ga_lambda c + j) (m_ind m)) /\
     (if (S i mod g_freq c =? 0) || (S i =? g_ngen c)
      then exists m t, select (gn_offspring gen) (g_mu c) = m :: t /\ gn_report gen = Some (max_fit (m_fit m) t)
      else gn_report gen = None)).
Proof.
  intros expf tau tau' c fit ini drs raws pop l Hs Hu H. unfold ga_build in H.
  destruct (init_pop c fit ini) as [p|] eqn:Ei; [|discriminate].
  destruct (ga_gens expf tau tau' c fit drs raws 1 (g_ngen c) p) as [l'|] eqn:E; [|discriminate].
  injection H as <- <-. destruct (init_pop_ok c fit ini p Hs Hu Ei) as (L & F).
  destruct (gens_ok expf tau tau' c fit drs raws Hs _ _ _ _ F E) as (A & B & C). auto.
Qed.
