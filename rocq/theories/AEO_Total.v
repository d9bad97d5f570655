(** A run with proper settings never raises. *)
From Coq Require Import List Arith ZArith QArith Bool Permutation Sorted Lia Lqa.
From Verif Require Import Base BaseFacts Space_Model Opt_Model Opt_Facts Opt_Facts2 Opt_Spec AEO_Model AEO_Spec AEO_Sort AEO_Matrix AEO_Proofs AEO_Run AEO_Top.
Import ListNotations.
Open Scope nat_scope.

Lemma mapi_nth {A B} (f : nat -> A -> B) l : forall i k a, nth_error l k = Some a -> nth_error (mapi f i l) k = Some (f (i + k) a).
Proof.
  induction l as [|x l IH]; intros i [|k] a H; cbn in *; try discriminate; [rewrite Nat.add_0_r; congruence|].
  rewrite (IH (S i) k a H). do 2 f_equal. lia.
Qed.
Lemma omap_total {A B} (f : A -> option B) l : (forall a, In a l -> exists b, f a = Some b) -> exists l', omap f l = Some l'.
Proof.
  intros H. unfold omap. apply (traverse_total _ (fun a => exists b, f a = Some b)); auto. apply Forall_forall. auto.
Qed.
Lemma traverse_total' {A B} (f : nat -> A -> option B) l : forall i, (forall k a, nth_error l k = Some a -> exists b, f (i + k) a = Some b) ->
  exists l', traverse f i l = Some l'.
Proof.
  induction l as [|a l IH]; intros i H; cbn [traverse]; [eauto|].
  destruct (H 0 a eq_refl) as (b & Hb). rewrite Nat.add_0_r in Hb. rewrite Hb. cbn.
  destruct (IH (S i)) as (bs & ->); [|cbn; eauto]. intros k x Hx. destruct (H (S k) x Hx) as (c & Hc). exists c. rewrite <- Hc. f_equal. lia.
Qed.
Lemma lmin_total l : l <> [] -> exists m, lmin l = Some m. Proof. destruct l; [contradiction | cbn; eauto]. Qed.
Lemma lmax_total l : l <> [] -> exists m, lmax l = Some m. Proof. destruct l; [contradiction | cbn; eauto]. Qed.
Lemma ready_pos a n : alg_ok a -> ready a n = true -> 1 <= n.
Proof. destruct a; cbn [alg_ok ready]; intros H E; apply Nat.leb_le in E; lia. Qed.

Section Total.
Context (pw : Q -> Q -> Q) (pa : apar) (ev : strategies) (dr : adraw) (Ncyc : nat).
Context (Hpw : power_ok pw) (Hset : settings_ok pa Ncyc) (Hd : draws_ok dr) (Hk : keeps_size ev) (Hr : never_raises ev).

Definition fit_to_go (p : apop) : Prop := alg_ok (ap_alg p) /\ (ap_log p = [] -> ready (ap_alg p) (length (ap_mem p)) = true).

Lemma pop_evolute_total c j p : sane p -> fit_to_go p ->
  exists p' s, pop_evolute (pa_gpc pa) (Ncyc * pa_gpc pa) (ev c j (ap_mem p)) p = Some (p', s) /\ (ap_log p = [] -> s <> []).
Proof.
  intros Hs [Ha Hf]. unfold pop_evolute.
  assert (Hn : ap_n p = length (ap_mem p)) by (destruct Hs as [[[_ ?] _]|[? _]]; auto).
  destruct Hset as (S1 & S2 & _).
  destruct (ready (ap_alg p) (length (ap_mem p))) eqn:Er; cbn [negb].
  - replace (Ncyc * pa_gpc pa =? 1) with false by (symmetry; apply Nat.eqb_neq; nia).
    pose proof (ready_pos _ _ Ha Er) as Hp.
    destruct (Hr c j (ap_mem p)) as (last & seen & E & Hne); [destruct (ap_mem p); [cbn in Hp; lia | discriminate]|].
    rewrite E. cbn [bind]. pose proof (Hk _ _ _ _ _ E) as Hl.
    destruct (lmin_total (map snd last)) as (m & Em); [destruct last; [cbn in Hl; lia | discriminate]|].
    rewrite Em. cbn [bind ap_mem ap_n]. rewrite map_length, Hl, Hn, Nat.eqb_refl. eauto.
  - destruct (ap_log p) as [|f fs] eqn:El; [specialize (Hf eq_refl); congruence|].
    cbn [ap_mem ap_n]. rewrite Hn, Nat.eqb_refl. do 2 eexists. split; [reflexivity|]. discriminate.
Qed.
Lemma evolve_total c ps : Forall sane ps -> Forall fit_to_go ps -> exists evd, evolve_all pa ev Ncyc c ps = Some evd.
Proof.
  intros H1 H2. unfold evolve_all. apply (traverse_total _ (fun p => sane p /\ fit_to_go p)).
  - intros k p [Hs Hf]. destruct (pop_evolute_total c k p Hs Hf) as (p' & s & E & _). eauto.
  - apply Forall_and; auto.
Qed.
Lemma fitness_total p : good p -> exists f, fitness p = Some f.
Proof.
  intros (_ & _ & H). unfold fitness. destruct (rev (ap_log p)) eqn:E; [|eauto].
  apply (f_equal (@rev Q)) in E. rewrite rev_involutive in E. contradiction.
Qed.
Lemma dfitness_total p : good p -> exists f, dfitness p = Some f.
Proof.
  intros (_ & _ & H). unfold dfitness. destruct (rev (ap_log p)) as [|f [|g l]] eqn:E; eauto.
  apply (f_equal (@rev Q)) in E. rewrite rev_involutive in E. contradiction.
Qed.
Lemma strength_total imp burden hi lo p : good p -> exists s, strength imp burden hi lo p = Some s.
Proof.
  intros H. unfold strength. destruct imp; [destruct (dfitness_total p H) as (f & ->) | destruct (fitness_total p H) as (f & ->)]; cbn; eauto.
Qed.
Lemma scaled_strengths fs dfs hi lo hid lod ps imp burden a : Forall good ps ->
  omap fitness ps = Some fs -> omap dfitness ps = Some dfs ->
  lmax fs = Some hi -> lmin fs = Some lo -> lmax dfs = Some hid -> lmin dfs = Some lod ->
  (if imp : bool then Qeq_bool hid lod else Qeq_bool hi lo) = false ->
  exists ss sc, strengths pw imp burden hi lo hid lod a ps = Some ss /\ scaled ss = Some sc.
Proof.
  intros Hg H1 H2 Hhi Hlo Hhid Hlod Hfl.
  assert (T : exists ss, strengths pw imp burden hi lo hid lod a ps = Some ss).
  { unfold strengths. apply omap_total. intros p Hp. rewrite Forall_forall in Hg.
    destruct imp; [destruct (strength_total true burden hid lod p (Hg p Hp)) as (s & ->) | destruct (strength_total false burden hi lo p (Hg p Hp)) as (s & ->)]; cbn; eauto. }
  destruct T as (ss & Hss). exists ss.
  destruct (strengths_nonneg pw fs dfs hi lo hid lod ps imp burden a ss Hpw H1 H2 Hhi Hlo Hhid Hlod Hfl Hss) as [_ Hnn].
  assert (W : exists v, In v ss /\ (0 < v)%Q).
  { assert (B : exists p, In p ps /\ (if imp then dfitness p else fitness p) = Some (if imp then lod else lo)).
    { destruct imp; [apply lmin_spec in Hlod as [Hin _]; clear -H2 Hin; rename H2 into H1, lod into lo | apply lmin_spec in Hlo as [Hin _]; clear -H1 Hin];
      apply omap_spec in H1; (induction H1 as [|p f l m Hp _ IH]; [contradiction|]; destruct Hin as [->|Hin];
        [exists p; split; [now left | exact Hp] | destruct (IH Hin) as (q & Hq & E); exists q; split; [now right | exact E]]). }
    destruct B as (p & Hp & Ep).
    assert (S : exists s, (if imp then strength true burden hid lod p else strength false burden hi lo p) = Some s /\ (0 < s)%Q).
    { assert (Hnc : (0 < 1 + qn (ap_nc p))%Q) by (pose proof (qn_nonneg (ap_nc p)); lra).
      assert (G : forall h l, Qeq_bool h l = false -> (0 < (l - h) / (l - h))%Q).
      { intros h l E. setoid_replace ((l - h) / (l - h))%Q with 1%Q; [lra|]. field. intros X.
        apply (Qeq_bool_neq _ _ E). lra. }
      unfold strength. destruct imp; rewrite Ep; cbn [bind]; eexists; (split; [reflexivity|]);
        destruct burden; try (apply G; exact Hfl); apply Qlt_shift_div_l; auto; rewrite Qmult_0_l; apply G; exact Hfl. }
    destruct S as (s & Es & Hs). unfold strengths in Hss. apply omap_spec in Hss.
    assert (K : forall l m, Forall2 (fun a0 b => (let* s0 := if imp then strength true burden hid lod a0 else strength false burden hi lo a0 in Some (pw s0 a)) = Some b) l m ->
                In p l -> In (pw s a) m).
    { induction 1 as [|q v l m Hq _ IH]; intros []; [|right; auto]. subst q. rewrite Es in Hq. cbn in Hq. left. congruence. }
    exists (pw s a). split; [exact (K _ _ Hss Hp)|]. apply Hpw, Hs. }
  destruct W as (v & Hv & Hvp). destruct (scaled_total ss v Hnn Hv Hvp) as (sc & Hsc). eauto.
Qed.
Lemma export_total c j p e : good p -> e <= length (ap_mem p) ->
  exists r, pop_export (pa_wt pa) (pa_order pa) (qn c / qn Ncyc) (ad_idx dr c j (length (ap_mem p)) e) p = Some r.
Proof.
  intros ((Hl & Hn) & Hkn & _) He. unfold pop_export.
  match goal with |- exists r, bind ?X _ = _ =>
    assert (K : exists ms fs, X = Some (ms, fs) /\ length ms = length (ap_mem p) /\ length fs = length (ap_mem p)) end.
  { destruct (pa_wt pa) eqn:Ew; [exists (ap_mem p), (ap_fit p); auto|].
    destruct Hset as (_ & _ & _ & [Hs|Hs]); [congruence|].
    assert (B : exists b, order_now (pa_order pa) (qn c / qn Ncyc) = Some b) by (destruct (pa_order pa); cbn; eauto; contradiction).
    destruct B as (b & ->). cbn [bind]. destruct (ordered_ok b p Hl Hkn) as (G1 & G2 & _). cbn zeta in G1, G2.
    destruct b; do 2 eexists; (split; [reflexivity|]); split; auto; congruence. }
  destruct K as (ms & fs & -> & L1 & L2). cbn [bind].
  set (ix := if ap_n p =? 0 then [] else _).
  destruct (dk_idx _ Hd c j (length (ap_mem p)) e He) as (D1 & D2 & D3).
  assert (I1 : NoDup ix /\ Forall (fun i => i < length (ap_mem p)) ix) by (unfold ix; destruct (ap_n p =? 0); split; auto using NoDup_nil).
  destruct I1 as [I1 I2].
  assert (I3 : Forall (fun i => i < length (ap_mem p)) (desc ix)) by (rewrite desc_perm; exact I2).
  destruct (pop_all_total (desc ix) ms (desc_sorted _ I1)) as (o & r & E & _); [rewrite L1; exact I3|]. rewrite E. cbn [bind].
  destruct (pop_all_total (desc ix) fs (desc_sorted _ I1)) as (o' & r' & E' & _); [rewrite L2; exact I3|]. rewrite E'. cbn [bind]. eauto.
Qed.
Lemma migrate_total c eis dest ps : Forall good ps -> (forall k p, nth_error ps k = Some p -> nth k eis 0 <= length (ap_mem p)) ->
  exists ps', migrate pa dr Ncyc c eis dest ps = Some ps'.
Proof.
  intros Hg He. unfold migrate.
  destruct (traverse_total' (fun j p => pop_export (pa_wt pa) (pa_order pa) (qn c / qn Ncyc) (ad_idx dr c j (length (ap_mem p)) (nth j eis 0)) p) ps 0) as (ex & ->).
  - intros k p Hp. apply export_total; [rewrite Forall_forall in Hg; exact (Hg p (nth_error_In _ _ Hp)) | apply He, Hp].
  - cbn [bind]. eauto.
Qed.
Lemma cycle_total c ps : 1 <= c -> c <= Ncyc -> ps <> [] -> Forall sane ps -> Forall fit_to_go ps ->
  exists r, aeo_cycle pw pa ev dr Ncyc c ps = Some r.
Proof.
  intros C1 C2 Hne Hs Hf. unfold aeo_cycle. destruct (evolve_total c ps Hs Hf) as (evd & E). rewrite E. cbn [bind].
  destruct (evolve_all_ok pa ev Ncyc (fun _ => 0%Q) c ps evd Hs E) as (G & G2 & _). set (bs := map fst evd) in *.
  assert (Hbl : length bs = length ps) by (symmetry; eapply Forall2_length; eauto).
  assert (Hbne : bs <> []) by (destruct bs; [destruct ps; [contradiction | discriminate] | discriminate]).
  destruct (omap_total fitness bs) as (fs & Hfs); [intros p Hp; rewrite Forall_forall in G; apply fitness_total, G, Hp|].
  destruct (omap_total dfitness bs) as (dfs & Hdfs); [intros p Hp; rewrite Forall_forall in G; apply dfitness_total, G, Hp|].
  rewrite Hfs, Hdfs. cbn [bind].
  assert (L1 : length fs = length bs) by (apply omap_spec in Hfs; symmetry; eapply Forall2_length; eauto).
  assert (L2 : length dfs = length bs) by (apply omap_spec in Hdfs; symmetry; eapply Forall2_length; eauto).
  assert (N1 : fs <> []) by (destruct fs; [destruct bs; [contradiction | discriminate] | discriminate]).
  assert (N2 : dfs <> []) by (destruct dfs; [destruct bs; [contradiction | discriminate] | discriminate]).
  destruct (lmax_total fs N1) as (hi & Hhi). destruct (lmin_total fs N1) as (lo & Hlo).
  destruct (lmax_total dfs N2) as (hid & Hhid). destruct (lmin_total dfs N2) as (lod & Hlod).
  rewrite Hhi, Hlo, Hhid, Hlod. cbn [bind].
  destruct Hset as (S1 & _ & S3 & _).
  assert (AB : forall r, exists a, get_alphabeta r c Ncyc = Some a).
  { intros r. unfold get_alphabeta. destruct r; eauto; (replace (Ncyc =? 1) with false by (symmetry; apply Nat.eqb_neq; lia)); eauto. }
  destruct (AB (pa_alpha pa)) as (alpha & ->). cbn [bind].
  match goal with |- exists r, bind ?X0 _ = _ =>
    assert (X : exists mig strs wts eis, X0 = Some (mig, strs, wts, eis) /\
      forall k p, nth_error bs k = Some p -> nth k eis 0 <= length (ap_mem p)) end.
  { destruct (if pa_gimp pa then _ else _) eqn:Efl.
    - do 4 eexists. split; [reflexivity|]. intros k p Hp.
      replace (nth k (map (fun _ => 0) bs) 0) with 0; [lia|]. symmetry. apply nth_error_nth. rewrite nth_error_map, Hp. reflexivity.
    - destruct (scaled_strengths fs dfs hi lo hid lod bs (pa_gimp pa) (pa_gburden pa) alpha G Hfs Hdfs Hhi Hlo Hhid Hlod Efl) as (ss & sc & Hss & Hsc).
      rewrite Hss. cbn [bind]. rewrite Hsc. cbn [bind].
      assert (Q1 : exists qt, get_q (pa_q pa) c Ncyc = Some qt).
      { unfold get_q. destruct (pa_q pa); eauto; (replace (Ncyc =? 1) with false by (symmetry; apply Nat.eqb_neq; lia)); eauto. }
      destruct Q1 as (qt & Hq). rewrite Hq. cbn [bind]. destruct (get_q_range _ _ _ _ S3 C1 C2 Hq) as [q1 q2].
      destruct (strengths_nonneg pw fs dfs hi lo hid lod bs _ _ _ ss Hpw Hfs Hdfs Hhi Hlo Hhid Hlod Efl Hss) as [Ls Hnn].
      destruct (scaled_ok _ _ Hnn Hsc) as [Lsc [Hp _]]. pose proof (wts_ok sc qt Hp q1 q2) as Hw.
      set (ws := map _ sc) in *.
      replace (forallb _ ws) with true.
      2:{ symmetry. apply forallb_forall. intros w Hin. rewrite Forall_forall in Hw. destruct (Hw w Hin) as [w1 w2].
          apply andb_true_iff. split; apply Qle_bool_iff; auto. }
      do 4 eexists. split; [reflexivity|]. intros k p Hkp. apply (mapi_nth (fun j p => ad_ei dr c j (length (ap_mem p)) (nth j ws 0%Q)) bs 0) in Hkp as Hk2.
      rewrite (nth_error_nth _ _ 0 Hk2). assert (Hkl : k < length bs) by (apply nth_error_Some; congruence).
      assert (Hwk : prob (nth k ws 0%Q)).
      { rewrite Forall_forall in Hw. apply Hw, nth_In. unfold ws. rewrite map_length. lia. }
      destruct Hwk. apply (dk_ei _ Hd); auto. }
  destruct X as (mig & strs & wts & eis & -> & Heis). cbn [bind].
  destruct (AB (pa_beta pa)) as (beta & ->). cbn [bind].
  match goal with |- exists r, bind ?X0 _ = _ => assert (Y : exists sd dest, X0 = Some sd /\ scaled sd = Some dest) end.
  { destruct (if pa_bimp pa then _ else _) eqn:Efl.
    - eexists. destruct (scaled_total (map (fun _ => 1%Q) bs) 1%Q) as (d & Hd'); [| |lra|].
      + apply Forall_map, Forall_forall. intros. lra.
      + destruct bs; [contradiction | now left].
      + eauto.
    - exact (scaled_strengths fs dfs hi lo hid lod bs (pa_bimp pa) (pa_bburden pa) beta G Hfs Hdfs Hhi Hlo Hhid Hlod Efl). }
  destruct Y as (sd & dest & -> & Hdest). cbn [bind]. rewrite Hdest. cbn [bind].
  destruct (migrate_total c eis dest bs G Heis) as (ps' & ->). cbn [bind]. eauto.
Qed.
Lemma loop_total stop : forall todo c st, 1 <= c -> c + todo <= S Ncyc -> as_pops st <> [] -> Forall sane (as_pops st) -> Forall fit_to_go (as_pops st) ->
  exists st', aeo_loop pw pa ev dr Ncyc stop c todo st = Some st'.
Proof.
  induction todo as [|t IH]; intros c st C1 C2 Hne Hs Hf; cbn [aeo_loop]; [eauto|].
  destruct (cycle_total c (as_pops st) C1 ltac:(lia) Hne Hs Hf) as ([[ps lg] seen] & E). rewrite E. cbn [bind].
  destruct (stop c); [eauto|].
  destruct (cycle_good _ _ _ _ _ (fun _ => 0%Q) _ _ _ _ _ Hd Hs E) as (G1 & G2 & _ & _ & G5 & G6 & _).
  apply IH; cbn [as_pops]; try lia.
  - intros ->. apply Forall2_length in G5, G6. destruct (as_pops st); [contradiction | cbn in *; lia].
  - apply good_sane, G2.
  - assert (A : forall k p, nth_error ps k = Some p -> exists q, nth_error (as_pops st) k = Some q /\ ap_alg p = ap_alg q).
    { intros k p Hp. assert (l1 : length (as_pops st) = length (cl_before lg)) by (eapply Forall2_length; eauto).
      assert (l2 : length (cl_before lg) = length ps) by (eapply Forall2_length; eauto).
      assert (Hkl : k < length ps) by (apply nth_error_Some; congruence).
      destruct (nth_error (cl_before lg) k) as [b|] eqn:Eb; [|apply nth_error_None in Eb; lia].
      destruct (nth_error (as_pops st) k) as [q|] eqn:Eq; [|apply nth_error_None in Eq; lia].
      exists q. split; auto. destruct (F2_nth_inv _ _ _ G5 _ _ _ Eq Eb) as [_ X1]. destruct (F2_nth_inv _ _ _ G6 _ _ _ Eb Hp) as (_ & X2 & _). congruence. }
    apply Forall_forall. intros p Hp. rewrite Forall_forall in G2. destruct (G2 p Hp) as (_ & _ & Hlog).
    apply In_nth_error in Hp as (k & Hk'). destruct (A k p Hk') as (q & Hq & Ea). split; [|intros; contradiction].
    rewrite Ea. rewrite Forall_forall in Hf. apply (Hf q (nth_error_In _ _ Hq)).
Qed.
Lemma loop_seen stop : forall todo c st st', 1 <= todo -> as_pops st <> [] -> Forall fresh (as_pops st) -> Forall fit_to_go (as_pops st) ->
  aeo_loop pw pa ev dr Ncyc stop c todo st = Some st' -> as_seen st' <> [].
Proof.
  intros todo c st st' Ht Hne Hfr Hf H. destruct todo as [|t]; [lia|]. cbn [aeo_loop] in H.
  apply bind_Some in H as ([[ps lg] seen] & E & H).
  assert (Hseen : seen <> []).
  { destruct (cycle_ok _ _ _ _ _ _ _ _ _ _ E) as (evd & eis & Ev & _ & _ & -> & _).
    unfold evolve_all in Ev. destruct (traverse_spec _ _ _ _ Ev) as [L N].
    destruct (as_pops st) as [|p ps0] eqn:Ep; [contradiction|]. destruct (N 0 p eq_refl) as ([p' s] & Hx & Hpe). cbn in Hpe.
    inversion Hfr as [|? ? F1 _]; subst. inversion Hf as [|? ? F2 _]; subst.
    destruct (pop_evolute_total c 0 p (or_intror F1) F2) as (p2 & s2 & E2 & Hs2). rewrite E2 in Hpe. injection Hpe as <- <-.
    destruct evd as [|x evd]; [discriminate|]. cbn in Hx. injection Hx as ->. cbn. specialize (Hs2 (proj2 F1)).
    destruct s2; [contradiction | discriminate]. }
  assert (G : forall todo c s s', aeo_loop pw pa ev dr Ncyc stop c todo s = Some s' -> incl (as_seen s) (as_seen s')).
  { clear. induction todo as [|t IH]; intros c s s' H; cbn [aeo_loop] in H; [injection H as <-; apply incl_refl|].
    apply bind_Some in H as ([[ps lg] seen] & E & H). destruct (stop c); [injection H as <-; cbn; apply incl_appl, incl_refl|].
    apply IH in H. cbn in H. eapply incl_tran; [|exact H]. apply incl_appl, incl_refl. }
  destruct seen as [|z seen]; [contradiction|].
  assert (In z (as_seen st')).
  { destruct (stop c); [injection H as <-; cbn; apply in_or_app; right; now left|].
    apply (G _ _ _ _ H). cbn. apply in_or_app. right. now left. }
  destruct (as_seen st'); [contradiction | discriminate].
Qed.
Lemma initial_fit_to_go algs x0 pop0 : length x0 = length pop0 -> enough algs pop0 -> Forall fit_to_go (initial algs x0 pop0).
Proof.
  intros Hl [_ He]. unfold initial. apply Forall_map, Forall_forall. intros [i a] Hin.
  assert (Hi : nth_error algs i = Some a).
  { assert (G : forall k, In (i, a) (combine (seq k (length algs)) algs) -> exists j, i = k + j /\ nth_error algs j = Some a).
    { clear. induction algs as [|b l IH]; intros k H; [contradiction|]. cbn in H. destruct H as [H|H].
      - injection H as -> ->. exists 0. split; [lia | reflexivity].
      - destruct (IH (S k) H) as (j & -> & Hj). exists (S j). split; [lia | exact Hj]. }
    destruct (G 0 Hin) as (j & -> & Hj). exact Hj. }
  destruct (He i a Hi) as [A1 A2]. split; [exact A1|]. intros _. cbn [ap_alg ap_mem].
  rewrite <- A2. f_equal. clear -Hl. revert pop0 Hl. induction x0 as [|x x0 IH]; intros [|p pop0] Hl; try discriminate; auto.
  cbn [combine filter snd count_occ]. specialize (IH pop0 ltac:(cbn in Hl; lia)).
  destruct (Nat.eq_dec p i) as [->|Hn]; [rewrite Nat.eqb_refl; cbn; f_equal; exact IH|].
  replace (p =? i) with false by (symmetry; apply Nat.eqb_neq; auto). exact IH.
Qed.
Lemma run_total fit algs stop before x0 pop0 : length x0 = length pop0 -> enough algs pop0 ->
  exists r, aeo_evolute pw pa ev dr Ncyc fit algs stop before x0 pop0 = Some r.
Proof.
  intros Hl He. unfold aeo_evolute. rewrite Hl, Nat.eqb_refl. cbn [negb].
  assert (Hne : initial algs x0 pop0 <> []).
  { intros X. apply (f_equal (@length apop)) in X. rewrite initial_length in X. destruct He as [He _]. destruct algs; [contradiction | discriminate]. }
  assert (Hf := initial_fit_to_go algs x0 pop0 Hl He).
  destruct (loop_total stop Ncyc 1 (ASt (initial algs x0 pop0) [] before)) as (st & E); cbn [as_pops]; auto; try lia.
  { apply fresh_sane, initial_fresh. }
  rewrite E. cbn [bind].
  assert (Hseen : as_seen st <> []).
  { refine (loop_seen stop Ncyc 1 _ st _ _ _ _ E); cbn [as_pops]; auto using initial_fresh. destruct Hset. lia. }
  destruct (argmin_Some (map fit (as_seen st))) as (b & y & Eb); [destruct (as_seen st); [contradiction | discriminate]|].
  rewrite Eb. cbn [bind]. apply argmin_spec in Eb as (K & _). rewrite nth_error_map in K.
  destruct (nth_error (as_seen st) b); [|discriminate]. cbn [bind]. eauto.
Qed.
End Total.
(** One cycle only: the ramps divide by zero. *)
Lemma one_cycle_raises pw pa ev dr fit algs stop before x0 pop0 : (pa_alpha pa = Up \/ pa_alpha pa = Down) ->
  aeo_evolute pw pa ev dr 1 fit algs stop before x0 pop0 = None.
Proof.
  intros Ha. unfold aeo_evolute. destruct (negb _); auto.
  assert (E : aeo_loop pw pa ev dr 1 stop 1 1 (ASt (initial algs x0 pop0) [] before) = None); [|rewrite E; reflexivity].
  cbn [aeo_loop as_pops].
  assert (C : aeo_cycle pw pa ev dr 1 1 (initial algs x0 pop0) = None); [|rewrite C; reflexivity].
  unfold aeo_cycle. destruct (evolve_all _ _ _ _ _); [|reflexivity]. cbn [bind].
  destruct (omap fitness _); [|reflexivity]. cbn [bind]. destruct (omap dfitness _); [|reflexivity]. cbn [bind].
  destruct (lmax _); [|reflexivity]. cbn [bind]. destruct (lmin _); [|reflexivity]. cbn [bind].
  destruct (lmax _); [|reflexivity]. cbn [bind]. destruct (lmin _); [|reflexivity]. cbn [bind].
  destruct Ha as [-> | ->]; reflexivity.
Qed.
