(** The genetic algorithm of the input files: the final statements. *)
From Coq Require Import List Arith ZArith QArith Bool Sorted Permutation Lia Lqa Qround.
From Verif Require Import Base BaseFacts Space_Model Space_Spec Space_Facts Opt_Model Opt_Facts ES_Model ES_Spec ES_Proofs
  GX_Model GX_Spec GX_Proofs.
Import ListNotations.
Open Scope nat_scope.

Lemma feasible_ga : forall expf tau tau' c fit ini drs raws pop l, sound c -> units ini ->
  ga_build expf tau tau' c fit ini drs raws = Some (pop, l) ->
  (forall m, In m pop -> feasible (g_dims c) (m_ind m)) /\
  (forall gen m, In gen l -> In m (gn_offspring gen) -> feasible (g_dims c) (m_ind m)).
Proof.
  intros expf tau tau' c fit ini drs raws pop l Hs Hu H. apply build_ga in H; auto.
  destruct H as (_ & F & _ & _ & H). rewrite Forall_forall in F. split.
  - intros m Hm. apply (F m Hm).
  - intros gen m Hg Hm. apply In_nth_error in Hg. destruct Hg as (i & Hi). apply H in Hi. destruct Hi as (_ & Hi & _).
    rewrite Forall_forall in Hi. apply (Hi m Hm).
Qed.
Lemma strategies_ga : forall expf tau tau' c fit ini drs raws pop l, sound c -> units ini ->
  ga_build expf tau tau' c fit ini drs raws = Some (pop, l) ->
  (forall m, In m pop -> strat_int c (m_strat m)) /\
  (forall gen m, In gen l -> In m (gn_offspring gen) -> strat_int c (m_strat m)).
Proof.
  intros expf tau tau' c fit ini drs raws pop l Hs Hu H. apply build_ga in H; auto.
  destruct H as (_ & F & _ & _ & H). rewrite Forall_forall in F. split.
  - intros m Hm. apply (F m Hm).
  - intros gen m Hg Hm. apply In_nth_error in Hg. destruct Hg as (i & Hi). apply H in Hi. destruct Hi as (_ & Hi & _).
    rewrite Forall_forall in Hi. apply (Hi m Hm).
Qed.
Lemma counts_ga : forall expf tau tau' c fit ini drs raws pop l, sound c -> units ini ->
  ga_build expf tau tau' c fit ini drs raws = Some (pop, l) ->
  length pop = ga_lambda c /\ length l = g_ngen c /\ forall gen, In gen l -> length (gn_offspring gen) = ga_lambda c.
Proof.
  intros expf tau tau' c fit ini drs raws pop l Hs Hu H. apply build_ga in H; auto.
  destruct H as (A & _ & B & _ & H). repeat split; auto. intros gen Hg. apply In_nth_error in Hg.
  destruct Hg as (i & Hi). apply H in Hi. apply Hi.
Qed.
Lemma lambda_asked : forall c, ga_lambda c = asked c.
Proof. intros c. unfold ga_lambda, asked. destruct (g_lambda c) as [[|n]|]; reflexivity. Qed.
Lemma counts_asked : forall expf tau tau' c fit ini drs raws pop l, sound c -> units ini ->
  ga_build expf tau tau' c fit ini drs raws = Some (pop, l) ->
  length pop = asked c /\ length l = g_ngen c /\ forall gen, In gen l -> length (gn_offspring gen) = asked c.
Proof. intros expf tau tau' c. rewrite <- lambda_asked. apply counts_ga. Qed.
Lemma share_floor : forall c frac, (0 <= frac)%Q ->
  (inject_Z (kbs_count c frac) <= frac * inject_Z (Z.of_nat (asked c)))%Q /\
  (frac * inject_Z (Z.of_nat (asked c)) < inject_Z (kbs_count c frac) + 1)%Q.
Proof.
  intros c frac H. unfold kbs_count. rewrite <- lambda_asked. set (q := (frac * inject_Z (Z.of_nat (ga_lambda c)))%Q).
  assert (Hq : (0 <= q)%Q).
  { apply Qmult_le_0_compat; [exact H|]. change (inject_Z 0 <= inject_Z (Z.of_nat (ga_lambda c)))%Q. rewrite <- Zle_Qle. lia. }
  unfold trunc. apply Qle_bool_iff in Hq. rewrite Hq. split; [apply Qfloor_le|].
  pose proof (Qlt_floor q) as Hf. rewrite inject_Z_plus in Hf. exact Hf.
Qed.
Lemma rewards_ga : forall expf tau tau' c fit ini drs raws pop l, sound c -> units ini ->
  ga_build expf tau tau' c fit ini drs raws = Some (pop, l) ->
  (forall j m, nth_error pop j = Some m -> m_fit m = fit j (m_ind m)) /\
  (forall i gen j m, nth_error l i = Some gen -> nth_error (gn_offspring gen) j = Some m ->
     m_fit m = fit (S i * ga_lambda c + j) (m_ind m)).
Proof.
  intros expf tau tau' c fit ini drs raws pop l Hs Hu H. split.
  - unfold ga_build, init_pop in H. destruct (init_from c ini 0 (ga_lambda c)) as [os|]; [|discriminate].
    destruct (ga_gens _ _ _ _ _ _ _ _ _ _) as [l'|]; [|discriminate]. injection H as <- <-. intros j m Hm.
    apply evaluate_nth in Hm. exact Hm.
  - apply build_ga in H; auto. destruct H as (_ & _ & _ & _ & H). intros i gen j m Hi Hm. apply H in Hi. apply Hi. exact Hm.
Qed.
Lemma succession_ga : forall expf tau tau' c fit ini drs raws pop l, sound c -> units ini ->
  ga_build expf tau tau' c fit ini drs raws = Some (pop, l) -> succession c pop l.
Proof.
  intros expf tau tau' c fit ini drs raws pop l Hs Hu H. apply build_ga in H; auto. apply H.
Qed.

Lemma max_fit_ge : forall l m, (m <= max_fit m l)%Q /\ forall a, In a l -> (m_fit a <= max_fit m l)%Q.
Proof.
  induction l as [|a l IH]; intros m; cbn; [split; [lra|intros ? []]|].
  destruct (IH (if Qltb m (m_fit a) then m_fit a else m)) as (I1 & I2).
  destruct (Qltb m (m_fit a)) eqn:E; qprop; (split; [lra|]; intros x [<-|Hx]; [lra|apply I2; exact Hx]).
Qed.
Lemma max_fit_in : forall l m, max_fit m l = m \/ exists a, In a l /\ max_fit m l = m_fit a.
Proof.
  induction l as [|a l IH]; intros m; cbn; [auto|].
  destruct (IH (if Qltb m (m_fit a) then m_fit a else m)) as [->|(b & Hb & ->)].
  - destruct (Qltb m (m_fit a)); [right; exists a; auto|auto].
  - right. exists b. auto.
Qed.
Lemma report_ga : forall expf tau tau' c fit ini drs raws pop l i gen, sound c -> units ini ->
  ga_build expf tau tau' c fit ini drs raws = Some (pop, l) -> nth_error l i = Some gen ->
  (gn_report gen <> None <-> S i mod g_freq c = 0 \/ S i = g_ngen c) /\
  forall q, gn_report gen = Some q -> greatest q (gn_offspring gen).
Proof.
  intros expf tau tau' c fit ini drs raws pop l i gen Hs Hu H Hi. apply build_ga in H; auto.
  destruct H as (_ & _ & _ & _ & H). apply H in Hi. destruct Hi as (_ & _ & _ & Hi).
  destruct ((S i mod g_freq c =? 0) || (S i =? g_ngen c)) eqn:E.
  - destruct Hi as (m & t & Hsel & Hr). split.
    + split; [|rewrite Hr; discriminate]. intros _. apply orb_true_iff in E. rewrite !Nat.eqb_eq in E. exact E.
    + intros q Hq. rewrite Hr in Hq. injection Hq as <-.
      destruct (select_best_of (gn_offspring gen) (g_mu c)) as (rest & P & L & S1 & S2). rewrite Hsel in *.
      destruct (max_fit_ge t (m_fit m)) as (G1 & G2). split.
      * destruct (max_fit_in t (m_fit m)) as [->|(a & Ha & ->)].
        -- exists m. split; [|reflexivity]. apply (Permutation_in m (Permutation_sym P)). left. reflexivity.
        -- exists a. split; [|reflexivity]. apply (Permutation_in a (Permutation_sym P)). right. apply in_app_iff. auto.
      * intros x Hx. apply (Permutation_in x P) in Hx. cbn in Hx. destruct Hx as [<-|Hx]; [exact G1|].
        apply in_app_iff in Hx. destruct Hx as [Hx|Hx]; [auto|].
        specialize (S2 m x (or_introl eq_refl) Hx). lra.
  - split; [|rewrite Hi; discriminate]. split; [rewrite Hi; congruence|]. intros Hor. apply orb_false_iff in E.
    rewrite !Nat.eqb_neq in E. tauto.
Qed.

(** ** Where children come from. *)
Lemma exchanged_exchange : forall p q a b x y, exchanged p q a b x y -> exchange p q a b x.
Proof.
  intros p q a b x y (L & _ & H). split; [exact L|]. intros k. destruct (H k) as (H1 & H2).
  destruct (Nat.leb_spec p k), (Nat.ltb_spec k q); cbn [andb]; [apply H1; lia|apply H2; lia|apply H2; lia|apply H2; lia].
Qed.
Lemma one_cases : forall expf tau tau' c dr pop x s f, Forall (okm c) pop ->
  ga_one expf tau tau' c dr pop = Some (x, s) ->
  ((od_rn dr < g_cxpb c)%Q -> crossed pop (Mem x s f)) /\
  ((g_cxpb c <= od_rn dr)%Q -> (g_cxpb c + g_mutpb c <= od_rn dr)%Q -> copied pop (Mem x s f)).
Proof.
  intros expf tau tau' c dr pop x s f HP H. unfold ga_one in H. destruct (Qltb (od_rn dr) (g_cxpb c)) eqn:Er; qprop.
  - split; [intros _|intros; exfalso; lra].
    destruct (Nat.ltb_spec (length pop) 2) as [|H2]; [discriminate|]. cbv zeta in H.
    set (a := od_i dr mod length pop) in H.
    set (b := if od_j dr mod (length pop - 1) <? a then _ else _) in H.
    destruct (nth_error pop a) as [m1|] eqn:E1; [|discriminate].
    destruct (nth_error pop b) as [m2|] eqn:E2; [|discriminate].
    pose proof (nth_error_In _ _ E1) as N1. pose proof (nth_error_In _ _ E2) as N2. rewrite Forall_forall in HP.
    destruct (HP _ N1) as (F1 & S1). destruct (HP _ N2) as (F2 & S2).
    destruct (cxES2point (od_r1 dr) (od_r2 dr) (m_ind m1) (m_ind m2) (m_strat m1) (m_strat m2))
      as [[[[c1 c2] t1] t2]|] eqn:Ec; [|discriminate]. injection H as <- <-.
    destruct (le_lt_dec 2 (length (m_ind m1))) as [Hl|Hl]; [|rewrite two_point_short in Ec by exact Hl; discriminate].
    pose proof (Forall2_len _ _ _ _ _ F1) as L1. pose proof (Forall2_len _ _ _ _ _ F2) as L2.
    pose proof (Forall2_len _ _ _ _ _ S1) as L3. pose proof (Forall2_len _ _ _ _ _ S2) as L4.
    destruct (two_point (od_r1 dr) (od_r2 dr) (m_ind m1) (m_ind m2) (m_strat m1) (m_strat m2) (length (m_ind m1)))
      as (p & q & d1 & d2 & u1 & u2 & Ed & P1 & P2 & P3 & X1 & X2); try lia.
    rewrite Ec in Ed. injection Ed as <- <- <- <-.
    exists a, b, m1, m2, p, q. split.
    { unfold b. destruct (Nat.ltb_spec (od_j dr mod (length pop - 1)) a); lia. }
    repeat (split; [assumption|]). cbn [m_ind m_strat]. split; eapply exchanged_exchange; eassumption.
  - split; [intros; exfalso; lra|]. intros _ Hr2.
    destruct (choice pop (od_i dr)) as [m|] eqn:E; [|discriminate].
    destruct (Qltb (od_rn dr) (g_cxpb c + g_mutpb c)) eqn:Em; qprop; [exfalso; lra|].
    injection H as <- <-. exists m. apply choice_In in E. auto.
Qed.
Lemma offspring_nth : forall expf tau tau' c drs pop todo k os i o,
  ga_offspring expf tau tau' c drs k todo pop = Some os -> nth_error os i = Some o ->
  ga_one expf tau tau' c (drs (k + i)) pop = Some o.
Proof.
  intros expf tau tau' c drs pop. induction todo as [|t IH]; intros k os i o H Hi; cbn in H.
  - injection H as <-. destruct i; discriminate.
  - destruct (ga_one expf tau tau' c (drs k) pop) as [o1|] eqn:E1; [|discriminate].
    destruct (ga_offspring expf tau tau' c drs (S k) t pop) as [os'|] eqn:E2; [|discriminate].
    injection H as <-. destruct i as [|i]; cbn in Hi.
    + injection Hi as <-. rewrite Nat.add_0_r. exact E1.
    + replace (k + S i) with (S k + i) by lia. eapply IH; eauto.
Qed.
Lemma evaluate_fst : forall fit os k i m, nth_error (ga_evaluate fit k os) i = Some m ->
  nth_error os i = Some (m_ind m, m_strat m).
Proof.
  intros fit. induction os as [|[x s] os IH]; intros k [|i] m H; cbn in *; try discriminate.
  - injection H as <-. reflexivity.
  - eapply IH; eauto.
Qed.
Lemma gens_children : forall expf tau tau' c fit drs raws, sound c -> forall todo g pop l,
  Forall (okm c) pop -> ga_gens expf tau tau' c fit drs raws g todo pop = Some l ->
  forall i gen j m, nth_error l i = Some gen -> nth_error (gn_offspring gen) j = Some m ->
  ((od_rn (drs (g + i)%nat j) < g_cxpb c)%Q -> crossed (gn_parents gen) m) /\
  ((g_cxpb c <= od_rn (drs (g + i)%nat j))%Q -> (g_cxpb c + g_mutpb c <= od_rn (drs (g + i)%nat j))%Q -> copied (gn_parents gen) m).
Proof.
  intros expf tau tau' c fit drs raws Hs. induction todo as [|t IH]; intros g pop l HP H i gen j m Hi Hm; cbn in H.
  - injection H as <-. destruct i; discriminate.
  - destruct (ga_gen expf tau tau' c fit g (drs g) (raws g) pop) as [[gen1 pop']|] eqn:E; [|discriminate].
    destruct (ga_gens expf tau tau' c fit drs raws (S g) t pop') as [l'|] eqn:E2; [|discriminate]. injection H as <-.
    apply gen_inv in E. destruct E as (os & Eo & Ep & Eoff & Ef & Eu & Er).
    destruct (offspring_ok expf tau tau' c (proj1 Hs) ltac:(apply Hs) _ _ HP _ _ _ Eo) as (Lo & Fo).
    assert (Fm : Forall (okm c) (gn_offspring gen1)) by (rewrite Eoff; apply evaluate_ok; exact Fo).
    apply update_spec in Eu. pose proof (next_ok c _ _ Hs Fm Eu) as Hnext.
    destruct i as [|i]; cbn in Hi.
    + injection Hi as <-. rewrite Nat.add_0_r, Ep. rewrite Eoff in Hm. apply evaluate_fst in Hm.
      pose proof (offspring_nth _ _ _ _ _ _ _ _ _ _ _ Eo Hm) as H1. cbn [Nat.add] in H1.
      destruct m as [x s f]. cbn [m_ind m_strat] in H1. exact (one_cases _ _ _ _ _ _ _ _ f HP H1).
    + replace (g + S i) with (S g + i) by lia. eapply IH; eauto.
Qed.
Lemma children_ga : forall expf tau tau' c fit ini drs raws pop l i gen j m, sound c -> units ini ->
  ga_build expf tau tau' c fit ini drs raws = Some (pop, l) ->
  nth_error l i = Some gen -> nth_error (gn_offspring gen) j = Some m ->
  ((od_rn (drs (S i) j) < g_cxpb c)%Q -> crossed (gn_parents gen) m) /\
  ((g_cxpb c <= od_rn (drs (S i) j))%Q -> (g_cxpb c + g_mutpb c <= od_rn (drs (S i) j))%Q -> copied (gn_parents gen) m).
Proof.
  intros expf tau tau' c fit ini drs raws pop l i gen j m Hs Hu H Hi Hm. unfold ga_build in H.
  destruct (init_pop c fit ini) as [p|] eqn:Ei; [|discriminate].
  destruct (ga_gens expf tau tau' c fit drs raws 1 (g_ngen c) p) as [l'|] eqn:E; [|discriminate].
  injection H as <- <-. destruct (init_pop_ok c fit ini p Hs Hu Ei) as (L & F).
  exact (gens_children expf tau tau' c fit drs raws Hs _ _ _ _ F E i gen j m Hi Hm).
Qed.

Lemma offspring_len : forall expf tau tau' c drs pop todo k os,
  ga_offspring expf tau tau' c drs k todo pop = Some os -> length os = todo.
Proof.
  intros expf tau tau' c drs pop. induction todo as [|t IH]; intros k os H; cbn in H.
  - injection H as <-. reflexivity.
  - destruct (ga_one expf tau tau' c (drs k) pop) as [o1|]; [|discriminate].
    destruct (ga_offspring expf tau tau' c drs (S k) t pop) as [os'|] eqn:E2; [|discriminate].
    injection H as <-. cbn. f_equal. eauto.
Qed.

(** ** What raises. *)
Lemma kbs_raises : forall expf tau tau' c fit ini drs raws rows frac, g_kbs c = Some (rows, frac) -> 1 <= g_ngen c ->
  (Z.of_nat (Nat.min (g_mu c) (ga_lambda c)) < kbs_count c frac)%Z \/ (kbs_count c frac < 0)%Z ->
  ga_build expf tau tau' c fit ini drs raws = None.
Proof.
  intros expf tau tau' c fit ini drs raws rows frac Hk Hn Hc. unfold ga_build.
  destruct (init_pop c fit ini) as [pop|]; [|reflexivity].
  destruct (g_ngen c) as [|n]; [lia|]. cbn.
  destruct (ga_gen expf tau tau' c fit 1 (drs 1) (raws 1) pop) as [[gen pop']|] eqn:E; [|reflexivity].
  apply gen_inv in E. destruct E as (os & Eo & Ep & Eoff & Ef & Eu & Er). exfalso. apply update_spec in Eu.
  destruct Eu as (kept & (rest & P & L & _) & H). rewrite Hk in H. destruct H as (H0 & is & _ & _ & H3 & _).
  assert (Lo : length (gn_offspring gen) = ga_lambda c).
  { rewrite Eoff, evaluate_len. exact (offspring_len _ _ _ _ _ _ _ _ _ Eo). }
  rewrite L, Lo in H3. lia.
Qed.
Lemma rows_raises : forall expf tau tau' c fit ini drs raws rows frac, g_kbs c = Some (rows, frac) -> 1 <= ga_lambda c ->
  length rows <= ga_lambda c -> ga_build expf tau tau' c fit ini drs raws = None.
Proof.
  intros expf tau tau' c fit ini drs raws rows frac Hk Hl Hr. unfold ga_build, init_pop.
  destruct (ga_lambda c) as [|n] eqn:El; [lia|]. cbn. unfold GenES. rewrite Hk, El.
  destruct (Nat.ltb_spec (S n) (length rows)); [lia|]. reflexivity.
Qed.
Lemma offspring_raises : forall expf tau tau' c drs pop todo k j, k <= j < k + todo ->
  ga_one expf tau tau' c (drs j) pop = None -> ga_offspring expf tau tau' c drs k todo pop = None.
Proof.
  intros expf tau tau' c drs pop. induction todo as [|t IH]; intros k j Hj H; [lia|]. cbn.
  destruct (Nat.eq_dec j k) as [->|]; [rewrite H; reflexivity|].
  destruct (ga_one expf tau tau' c (drs k) pop); [|reflexivity]. rewrite (IH (S k) j ltac:(lia) H). reflexivity.
Qed.
Lemma next_length : forall c off pop', length off = ga_lambda c -> next_parents c off pop' ->
  length pop' = Nat.min (g_mu c) (ga_lambda c).
Proof.
  intros c off pop' Lo (kept & (rest & _ & L & _) & H). rewrite Lo in L.
  destruct (g_kbs c) as [[rows frac]|]; [|congruence]. destruct H as (_ & is & _ & _ & _ & H & _). lia.
Qed.
(** A crossover with one parent, or of individuals of one number, raises. *)
Lemma pair_raises_gens : forall expf tau tau' c fit drs raws, sound c -> forall todo g pop i j,
  Forall (okm c) pop -> (length pop < 2 \/ 1 <= i /\ Nat.min (g_mu c) (ga_lambda c) < 2 \/ length (g_dims c) < 2) ->
  i < todo -> j < ga_lambda c -> (od_rn (drs (g + i)%nat j) < g_cxpb c)%Q ->
  (i = 0 \/ Nat.min (g_mu c) (ga_lambda c) < 2 \/ length (g_dims c) < 2) ->
  ga_gens expf tau tau' c fit drs raws g todo pop = None.
Proof.
  intros expf tau tau' c fit drs raws Hs. induction todo as [|t IH]; intros g pop i j HP Hc Hi Hj Hr Hd; [lia|]. cbn.
  destruct (ga_gen expf tau tau' c fit g (drs g) (raws g) pop) as [[gen pop']|] eqn:E; [|reflexivity].
  apply gen_inv in E. destruct E as (os & Eo & Ep & Eoff & Ef & Eu & Er).
  destruct (offspring_ok expf tau tau' c (proj1 Hs) ltac:(apply Hs) _ _ HP _ _ _ Eo) as (Lo & Fo).
  assert (Fm : Forall (okm c) (gn_offspring gen)) by (rewrite Eoff; apply evaluate_ok; exact Fo).
  apply update_spec in Eu. pose proof (next_ok c _ _ Hs Fm Eu) as Hnext.
  destruct i as [|i].
  - exfalso. rewrite Nat.add_0_r in Hr.
    rewrite (offspring_raises expf tau tau' c (drs g) pop (ga_lambda c) 0 j ltac:(lia)) in Eo; [discriminate|].
    unfold ga_one. destruct (Qltb (od_rn (drs g j)) (g_cxpb c)) eqn:Eq; qprop; [|exfalso; lra].
    destruct (Nat.ltb_spec (length pop) 2) as [|Hp]; [reflexivity|]. cbv zeta.
    destruct (nth_error pop (od_i (drs g j) mod length pop)) as [m1|] eqn:E1; [|reflexivity].
    match goal with |- context [nth_error pop ?b] => destruct (nth_error pop b) as [m2|]; [|reflexivity] end.
    rewrite two_point_short; [reflexivity|]. apply nth_error_In in E1. rewrite Forall_forall in HP.
    destruct (HP _ E1) as (F1 & _). apply Forall2_len in F1. lia.
  - assert (L : length (gn_offspring gen) = ga_lambda c) by (rewrite Eoff, evaluate_len; exact Lo).
    pose proof (next_length c _ _ L Eu). rewrite (IH (S g) pop' i j); auto; try lia.
    replace (S g + i) with (g + S i) by lia. exact Hr.
Qed.
Lemma pair_raises : forall expf tau tau' c fit ini drs raws i j, sound c -> units ini ->
  i < g_ngen c -> j < ga_lambda c -> (od_rn (drs (S i) j) < g_cxpb c)%Q ->
  (ga_lambda c < 2 \/ 1 <= i /\ g_mu c < 2 \/ length (g_dims c) < 2) ->
  ga_build expf tau tau' c fit ini drs raws = None.
Proof.
  intros expf tau tau' c fit ini drs raws i j Hs Hu Hi Hj Hr Hd. unfold ga_build.
  destruct (init_pop c fit ini) as [p|] eqn:Ei; [|reflexivity].
  destruct (init_pop_ok c fit ini p Hs Hu Ei) as (L & F).
  rewrite (pair_raises_gens expf tau tau' c fit drs raws Hs (g_ngen c) 1 p i j); auto; lia.
Qed.

(** ** What does not raise. *)
Section Total.
Context (expf : Q -> Q) (tau tau' : nat -> Q) (c : ga_card).
Context (He : forall x, (0 < expf x)%Q) (Hs : sound c).

Lemma mut_coord_total : forall n dr i d x s,
  (d_lo d <= d_hi d)%Q /\ (d_int d = true -> is_int (d_lo d) /\ is_int (d_hi d)) ->
  (d_lo d <= x)%Q /\ (x <= d_hi d)%Q /\ (d_int d = true -> is_int x) ->
  (d_int d = true -> (g_smin c <= s)%Q /\ (s <= g_smax c)%Q) ->
  exists r, ga_mut_coord expf tau tau' c n dr i d x s = Some r.
Proof.
  intros n dr i d x s (Hd1 & Hd2) (Hx1 & Hx2 & Hx3) Hst. destruct Hs as (_ & H0 & H1 & H2 & _).
  unfold ga_mut_coord. destruct (d_int d); [|eauto].
  destruct (Hd2 eq_refl) as (Hlo & Hhi). destruct (Hst eq_refl) as (S1 & S2). specialize (Hx3 eq_refl).
  destruct (Qeq_bool s 0) eqn:E1; [apply Qeq_bool_iff in E1; exfalso; lra|].
  destruct (Qeq_bool (g_smax c - g_smin c) 0) eqn:E2; [apply Qeq_bool_iff in E2; exfalso; lra|]. cbn [orb]. cbv zeta.
  match goal with |- context [expf ?e] => pose proof (He e) as He1; set (ex := expf e) in * end. clearbody ex.
  assert (0 <= (1 - s) / s)%Q by (apply Qle_shift_div_l; lra).
  destruct (Qeq_bool (1 + (1 - s) / s * ex) 0) eqn:E3; [apply Qeq_bool_iff in E3; exfalso; nra|].
  destruct (Qltb _ _); [|eauto].
  destruct (Z.eqb_spec (trunc (d_lo d)) (trunc (d_hi d))) as [|Hne]; [eauto|].
  pose proof (trunc_is_int _ Hx3) as Qx. destruct (Qeq_bool x (inject_Z (trunc x))) eqn:E4;
    [|apply Qeq_bool_neq in E4; contradiction].
  assert (In (trunc x) (zrange (trunc (d_lo d)) (trunc (d_hi d + 1)))).
  { apply in_zrange. rewrite (trunc_succ _ Hhi). pose proof (trunc_mono _ _ Hx1). pose proof (trunc_mono _ _ Hx2). lia. }
  destruct (zremove_Some _ _ H3) as (l & El & _). rewrite El.
  assert (Hl : l <> []).
  { intros ->. pose proof (trunc_mono _ _ Hd1) as Hm.
    assert (Hz : exists z, In z (zrange (trunc (d_lo d)) (trunc (d_hi d + 1))) /\ z <> trunc x).
    { destruct (Z.eq_dec (trunc x) (trunc (d_lo d))) as [->|].
      - exists (trunc (d_hi d)). split; [|auto]. apply in_zrange. rewrite (trunc_succ _ Hhi). lia.
      - exists (trunc (d_lo d)). split; [|auto]. apply in_zrange. rewrite (trunc_succ _ Hhi). lia. }
    destruct Hz as (z & Hz1 & Hz2). apply (proj2 (zremove_In _ _ _ (zrange_NoDup _ _) El z) (conj Hz1 Hz2)). }
  destruct (choice_total l (md_pick dr i) Hl) as (z & ->). eauto.
Qed.
Lemma mut_from_total : forall n dr ds v,
  Forall2 (fun d x => (d_lo d <= x)%Q /\ (x <= d_hi d)%Q /\ (d_int d = true -> is_int x)) ds v ->
  Forall (fun d => (d_lo d <= d_hi d)%Q /\ (d_int d = true -> is_int (d_lo d) /\ is_int (d_hi d))) ds ->
  forall i st, Forall2 (fun d s => d_int d = true -> (g_smin c <= s)%Q /\ (s <= g_smax c)%Q) ds st ->
  exists r, ga_mut_from expf tau tau' c n dr i ds v st = Some r.
Proof.
  intros n dr ds v H. induction H as [|d x ds v Hx H IH]; intros HF i st Hst; cbn; [eauto|].
  inversion Hst; subst. inversion HF; subst.
  edestruct (mut_coord_total n dr i d x y) as ([u w] & ->); auto.
  edestruct (IH ltac:(assumption) (S i)) as ([us ws] & ->); eauto.
Qed.
Lemma one_total : forall dr pop, 2 <= length (g_dims c) -> 2 <= length pop -> Forall (okm c) pop ->
  exists r, ga_one expf tau tau' c dr pop = Some r.
Proof.
  intros dr pop H2 Hp HP. pose proof HP as HP'. rewrite Forall_forall in HP'. unfold ga_one.
  destruct (Qltb (od_rn dr) (g_cxpb c)).
  - destruct (Nat.ltb_spec (length pop) 2); [lia|]. cbv zeta.
    assert (A : od_i dr mod length pop < length pop) by (apply Nat.mod_upper_bound; lia).
    assert (B : od_j dr mod (length pop - 1) < length pop - 1) by (apply Nat.mod_upper_bound; lia).
    destruct (nth_error pop (od_i dr mod length pop)) as [m1|] eqn:E1; [|apply nth_error_None in E1; lia].
    match goal with |- context [nth_error pop ?b] => destruct (nth_error pop b) as [m2|] eqn:E2;
      [|apply nth_error_None in E2; destruct (Nat.ltb_spec (od_j dr mod (length pop - 1)) (od_i dr mod length pop)); lia] end.
    apply nth_error_In in E1. apply nth_error_In in E2.
    destruct (HP' _ E1) as (F1 & S1). destruct (HP' _ E2) as (F2 & S2).
    pose proof (Forall2_len _ _ _ _ _ F1) as L1. pose proof (Forall2_len _ _ _ _ _ F2) as L2.
    pose proof (Forall2_len _ _ _ _ _ S1) as L3. pose proof (Forall2_len _ _ _ _ _ S2) as L4.
    destruct (two_point (od_r1 dr) (od_r2 dr) (m_ind m1) (m_ind m2) (m_strat m1) (m_strat m2) (length (m_ind m1)))
      as (p & q & d1 & d2 & u1 & u2 & Ed & _); try lia. rewrite Ed. eauto.
  - destruct (choice_total pop (od_i dr)) as (m & E); [intros ->; cbn in Hp; lia|]. rewrite E. apply choice_In in E.
    destruct (HP' _ E) as (F1 & S1). destruct (Qltb _ _); [|eauto].
    apply mut_from_total; auto. apply Hs.
Qed.
Lemma offspring_total : forall drs pop, 2 <= length (g_dims c) -> 2 <= length pop -> Forall (okm c) pop ->
  forall todo k, exists os, ga_offspring expf tau tau' c drs k todo pop = Some os.
Proof.
  intros drs pop H2 Hp HP. induction todo as [|t IH]; intros k; cbn; [eauto|].
  destruct (one_total (drs k) pop H2 Hp HP) as (o & ->). destruct (IH (S k)) as (os & ->). eauto.
Qed.
End Total.

Lemma update_total : forall c raws kept, enough c -> 1 <= length kept -> length kept = Nat.min (g_mu c) (ga_lambda c) ->
  exists pop', kbs_update c raws kept = Some pop'.
Proof.
  intros c raws kept He H1 HL. unfold kbs_update, enough in *. destruct (g_kbs c) as [[rows frac]|]; [|eauto].
  destruct He as (E1 & E2 & E3). destruct (Z.ltb_spec (kbs_count c frac) 0); [lia|].
  destruct (sample_total (Z.to_nat (kbs_count c frac)) (seq 0 (length rows)) raws 0 (seq_NoDup _ _)) as (is & Eis);
    [rewrite seq_length; lia|]. rewrite Eis. apply sample_ok in Eis; [|apply seq_NoDup].
  destruct Eis as (_ & L & I). destruct kept as [|m t] eqn:Ek; [cbn in H1; lia|]. rewrite <- Ek in *.
  destruct (rows_at_total rows is I) as (rs & Er). rewrite Er. apply rows_at_spec in Er. apply replace_total. lia.
Qed.
Lemma gens_total : forall expf tau tau' c fit drs raws, (forall x, (0 < expf x)%Q) -> sound c -> enough c ->
  2 <= length (g_dims c) -> 2 <= g_mu c -> 2 <= ga_lambda c -> 1 <= g_freq c ->
  forall todo g pop, 2 <= length pop -> Forall (okm c) pop ->
  exists l, ga_gens expf tau tau' c fit drs raws g todo pop = Some l.
Proof.
  intros expf tau tau' c fit drs raws He Hs Hen H2 Hmu Hla Hf. induction todo as [|t IH]; intros g pop Hp HP; cbn; [eauto|].
  destruct (offspring_total expf tau tau' c He Hs (drs g) pop H2 Hp HP (ga_lambda c) 0) as (os & Eo).
  destruct (offspring_ok expf tau tau' c (proj1 Hs) ltac:(apply Hs) _ _ HP _ _ _ Eo) as (Lo & Fo).
  set (off := ga_evaluate fit (g * ga_lambda c) os).
  assert (Lo' : length off = ga_lambda c) by (unfold off; rewrite evaluate_len; exact Lo).
  assert (Ls : length (select off (g_mu c)) = Nat.min (g_mu c) (ga_lambda c)).
  { destruct (select_best_of off (g_mu c)) as (_ & _ & L & _). rewrite L, Lo'. reflexivity. }
  destruct (update_total c (raws g) (select off (g_mu c)) Hen ltac:(lia) Ls) as (pop' & Eu).
  assert (Eg : exists gen, ga_gen expf tau tau' c fit g (drs g) (raws g) pop = Some (gen, pop')).
  { unfold ga_gen. rewrite Eo. cbv zeta. fold off. destruct (g_freq c) as [|fr]; [lia|].
    destruct ((g mod S fr =? 0) || (g =? g_ngen c)).
    - destruct (select off (g_mu c)) as [|m tl] eqn:Es; [cbn in Ls; lia|]. rewrite Eu. eauto.
    - rewrite Eu. eauto. }
  destruct Eg as (gen & ->). apply update_spec in Eu.
  assert (Hnext : Forall (okm c) pop').
  { apply (next_ok c off pop' Hs); [apply evaluate_ok; exact Fo|exact Eu]. }
  destruct (IH (S g) pop') as (l & ->); [rewrite (next_length c off pop' Lo' Eu); lia|exact Hnext|eauto].
Qed.
Lemma init_total : forall c ini, sound c -> enough c -> 1 <= ga_lambda c -> forall todo k, exists os, init_from c ini k todo = Some os.
Proof.
  intros c ini Hs Hen Hl. induction todo as [|t IH]; intros k; cbn; [eauto|].
  assert (E : exists o, GenES c (ini k) = Some o).
  { unfold GenES. unfold enough in Hen. destruct (g_kbs c) as [[rows frac]|].
    - destruct Hen as (E1 & _). destruct (Nat.ltb_spec (ga_lambda c) (length rows)); [|lia].
      destruct (choice_total rows (id_row (ini k))) as (r & ->); [intros ->; cbn in E1; lia|]. eauto.
    - assert (Eg : exists v, gen_ind (g_dims c) (ini k) 0 = Some v); [|destruct Eg as (v & ->); eauto].
      destruct Hs as (W & _). unfold wf_dims in W. generalize 0 as a.
      induction W as [|d ds (Hd1 & Hd2) W IHd]; intros a; cbn; [eauto|].
      destruct (IHd (S a)) as (v & ->). destruct (d_int d); [|eauto]. unfold randint_incl.
      pose proof (trunc_mono _ _ Hd1). destruct (Z.leb_spec (trunc (d_lo d)) (trunc (d_hi d))); [eauto|lia]. }
  destruct E as (o & ->). destruct (IH (S k)) as (os & ->). eauto.
Qed.
Lemma build_total : forall expf tau tau' c fit ini drs raws, (forall x, (0 < expf x)%Q) -> sound c -> units ini -> enough c ->
  2 <= length (g_dims c) -> 2 <= g_mu c -> 2 <= ga_lambda c -> 1 <= g_freq c ->
  exists pop l, ga_build expf tau tau' c fit ini drs raws = Some (pop, l).
Proof.
  intros expf tau tau' c fit ini drs raws He Hs Hu Hen H2 Hmu Hla Hf. unfold ga_build.
  destruct (init_total c ini Hs Hen ltac:(lia) (ga_lambda c) 0) as (os & Eo).
  destruct (init_pop c fit ini) as [pop|] eqn:Ei; [|unfold init_pop in Ei; rewrite Eo in Ei; discriminate].
  destruct (init_pop_ok c fit ini pop Hs Hu Ei) as (L & F).
  destruct (gens_total expf tau tau' c fit drs raws He Hs Hen H2 Hmu Hla Hf (g_ngen c) 1 pop ltac:(lia) F) as (l & ->). eauto.
Qed.
