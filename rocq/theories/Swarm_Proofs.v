(** Proofs about WOA, SSA, MFO and JAYA. *)
From Coq Require Import List Arith ZArith QArith Qabs Bool Lia Lqa Permutation Sorted.
From Verif Require Import Base BaseFacts Space_Model Space_Spec Space_Facts Opt_Model Opt_Spec Opt_Facts Opt_Facts2
  Pop_Model Pop_Spec Pop_Proofs Swarm_Model.
Import ListNotations.
Open Scope nat_scope.

Section P.
Context (expf cosf : Q -> Q) (m : mode) (fit : list Q -> Q) (ds : list dimn) (mt : imethod).
Context (W : wf_dims ds) (DO : discrete_ok mt ds).

Lemma settle_ok alpha dr v w : length v = length ds -> settle expf alpha mt dr ds v = Some w -> feasible ds w.
Proof.
  intros L H. destruct (settle_total expf ds W alpha mt dr v L DO) as (w' & E & F). rewrite E in H. inversion H; subst; auto.
Qed.
Lemma feas_nth x j d : feasible ds x -> nth_error ds j = Some d -> exists a, nth_error x j = Some a.
Proof.
  intros F H. destruct (nth_error x j) eqn:E; eauto. apply nth_error_None in E.
  assert (j < length ds) by (apply nth_error_Some; congruence). apply feasible_length in F. lia.
Qed.
Lemma row_feas ps i x : Forall (feasible ds) ps -> nth_error ps i = Some x -> feasible ds x.
Proof. intros F H. rewrite Forall_forall in F. apply F. eapply nth_error_In; eauto. Qed.

(** * WOA *)
Section WOA.
Context (n : nat) (n1 : 1 <= n) (a0 b : Q) (ngen : nat) (ka kfac : option (list Q)) (drs : nat -> nat -> wdraw).

Lemma woa_move_ok k bx pos pos' : Forall (feasible ds) pos -> length pos = n -> feasible ds bx ->
  woa_move expf cosf ds mt n a0 b ngen ka kfac drs k bx pos = Some pos' -> Forall (feasible ds) pos' /\ length pos' = n.
Proof.
  intros F L Fb H. unfold woa_move in H. apply bind_Some in H. destruct H as (a & _ & H). apply bind_Some in H. destruct H as (fac & _ & H).
  apply (rows_loop_inv ds) in H; auto; [rewrite <- L; auto|].
  intros i ps x y Fp Fx Hy. unfold woa_row in Hy. apply bind_Some in Hy. destruct Hy as (v & Ev & Hy).
  apply coords_length in Ev. eapply settle_ok; eauto.
Qed.

Lemma woa_best init r : good_init ds n init -> woa_evolute expf cosf m fit ds mt n a0 b ngen ka kfac drs init = Some r ->
  report m fit ds n 2 ngen init (pr_log r) (pr_bx r) (pr_by r) (pr_hg r) (pr_pop r) (pr_pf r) /\
  length (pr_hl r) = ngen /\ local_exact m fit n 2 (pr_log r) (pr_hl r).
Proof. intros Gi H. eapply pop_best; eauto using woa_move_ok. Qed.

Lemma woa_total init : good_init ds n init -> ngen <> 0 ->
  (forall l, kfac = Some l -> length l = ngen) ->
  (forall l, ka = Some l -> length l = ngen /\ kfac <> None) ->
  exists r, woa_evolute expf cosf m fit ds mt n a0 b ngen ka kfac drs init = Some r.
Proof.
  intros Gi Hn Hf Ha. unfold woa_evolute.
  apply pop_total with (n := n); auto; [exact woa_move_ok|].
  intros k bx pos Hk F L Fb. unfold woa_move. simpl in Hk.
    assert (exists a, woa_a a0 ngen k ka kfac = Some a) as (a & Ea).
    { unfold woa_a. destruct ka as [la|]; [|eauto]. destruct (Ha la eq_refl) as (La & Hk0). destruct kfac as [lf|]; [|congruence].
      rewrite (Hf lf eq_refl), Nat.eqb_refl. destruct (nth_error la k) eqn:E; eauto. apply nth_error_None in E. lia. }
    assert (exists a, woa_fac ngen k kfac = Some a) as (fac & Ef).
    { unfold woa_fac. destruct kfac as [lf|]; [|eauto]. 
      rewrite (Hf lf eq_refl), Nat.eqb_refl. destruct (nth_error lf k) eqn:E; eauto. apply nth_error_None in E. rewrite (Hf lf eq_refl) in E. lia. }
    rewrite Ea, Ef. cbn [bind].
    destruct (rows_loop_total ds (woa_row expf cosf ds mt n b a fac (anneal1 k ngen) bx (drs k)) n pos) as (p' & E & _); eauto; [|lia].
    intros i ps x Lp Fp Fx Hi. unfold woa_row. cbv zeta.
    match goal with |- exists y, bind (coords ?f 0 ds x) _ = _ /\ _ => destruct (coords_total f ds 0 x) as (v & Ev & Lv) end.
    - apply feasible_length; auto.
    - intros j d q Hj. simpl. unfold woa_coord. destruct (Qltb _ _).
      + destruct (Qle_bool _ _).
        * destruct (nth_error ps (w_idx (drs k i) j mod n)) as [row|] eqn:Er.
          -- cbn [bind]. destruct (feas_nth row j d) as (z & Ez); auto. { eapply row_feas; eauto. } rewrite Ez. cbn [bind]. eauto.
          -- apply nth_error_None in Er. pose proof (Nat.mod_upper_bound (w_idx (drs k i) j) n). lia.
        * destruct (feas_nth bx j d) as (z & Ez); auto. rewrite Ez. cbn [bind]. eauto.
      + destruct (feas_nth bx j d) as (z & Ez); auto. rewrite Ez. cbn [bind]. eauto.
    - rewrite Ev. cbn [bind]. apply settle_total; auto.
Qed.

Lemma woa_a_alone la init : ngen <> 0 -> woa_evolute expf cosf m fit ds mt n a0 b ngen (Some la) None drs init = None.
Proof.
  intros Hn. unfold woa_evolute, pop_evolute. destruct (argmin _) as [[i f]|]; auto. cbn [bind].
  destruct (nth_error init i); auto. cbn [bind]. destruct (ngen =? 0); auto. destruct ngen as [|g]; [congruence|]. reflexivity.
Qed.
End WOA.

(** * SSA *)
Section SSA.
Context (n : nat) (n1 : 1 <= n) (ngen : nat) (c1 : c1_arg) (drs : nat -> nat -> sdraw2).

Lemma ssa_move_ok k bx pos pos' : Forall (feasible ds) pos -> length pos = n -> feasible ds bx ->
  ssa_move expf ds mt n ngen c1 drs k bx pos = Some pos' -> Forall (feasible ds) pos' /\ length pos' = n.
Proof.
  intros F L Fb H. unfold ssa_move in H. apply bind_Some in H. destruct H as (a & _ & H).
  apply (rows_loop_inv ds) in H; auto; [rewrite <- L; auto|].
  intros i ps x y Fp Fx Hy. unfold ssa_row in Hy. apply bind_Some in Hy. destruct Hy as (v & Ev & Hy).
  assert (length v = length ds).
  { destruct (2 * i <? n); [apply coords_length in Ev; auto|]. apply bind_Some in Ev. destruct Ev as (p & _ & Ev). apply coords_length in Ev; auto. }
  eapply settle_ok; eauto.
Qed.

Lemma ssa_best init r : good_init ds n init -> ssa_evolute expf m fit ds mt n ngen c1 drs init = Some r ->
  report m fit ds n 2 ngen init (pr_log r) (pr_bx r) (pr_by r) (pr_hg r) (pr_pop r) (pr_pf r) /\
  length (pr_hl r) = ngen /\ local_exact m fit n 2 (pr_log r) (pr_hl r).
Proof. intros Gi H. eapply pop_best; eauto using ssa_move_ok. Qed.

Lemma ssa_total init : good_init ds n init -> ngen <> 0 ->
  (forall l, c1 = C1List l -> length l = ngen) ->
  exists r, ssa_evolute expf m fit ds mt n ngen c1 drs init = Some r.
Proof.
  intros Gi Hn Hc. unfold ssa_evolute.
  apply pop_total with (n := n); auto; [exact ssa_move_ok|].
  intros k bx pos Hk F L Fb. unfold ssa_move.
  assert (exists c, ssa_c1 expf ngen k c1 = Some c) as (c & Ec).
  { unfold ssa_c1. destruct c1 as [|q|l]; eauto. rewrite (Hc l eq_refl), Nat.eqb_refl.
    destruct (nth_error l (k - 1)) eqn:E; eauto. apply nth_error_None in E. rewrite (Hc l eq_refl) in E. lia. }
  rewrite Ec. cbn [bind].
  destruct (rows_loop_total ds (ssa_row expf ds mt n c (anneal1 k ngen) bx (drs k)) n pos) as (p' & E & _); eauto; [|lia].
  intros i ps x Lp Fp Fx Hi. unfold ssa_row. cbv zeta.
  match goal with |- exists y, bind ?t _ = _ /\ _ => assert (exists v, t = Some v /\ length v = length ds) as (v & Ev & Lv) end.
  { destruct (2 * i <? n) eqn:Ei.
    - apply coords_total; [apply feasible_length; auto|]. intros j d q Hj.
      destruct (feas_nth bx j d) as (z & Ez); auto. simpl. rewrite Ez. cbn [bind]. eauto.
    - apply Nat.ltb_ge in Ei. destruct (nth_error ps (i - 1)) as [pv|] eqn:Ep; [|apply nth_error_None in Ep; lia]. cbn [bind].
      apply coords_total; [apply feasible_length; auto|]. intros j d q Hj.
      destruct (feas_nth pv j d) as (z & Ez); auto. { eapply row_feas; eauto. } simpl. rewrite Ez. cbn [bind]. eauto. }
  rewrite Ev. cbn [bind]. apply settle_total; auto.
Qed.
End SSA.

Lemma traverse_feas (f : nat -> list Q -> option (list Q)) (l : list (list Q)) : forall i l', (forall i x y, In x l -> f i x = Some y -> feasible ds y) -> traverse f i l = Some l' ->
  Forall (feasible ds) l' /\ length l' = length l.
Proof.
  induction l as [|a l IH]; intros i l' H E; simpl in E.
  - inversion E; subst; auto.
  - apply bind_Some in E. destruct E as (y & Ey & E). apply bind_Some in E. destruct E as (r & Er & E). inversion E; subst.
    destruct (IH _ _ (fun i x y Hx => H i x y (or_intror Hx)) Er) as (I1 & I2). split; [constructor; auto; eapply H; [left; eauto|eauto]|simpl; lia].
Qed.

(** * MFO *)
Section MFO.
Context (n : nat) (n1 : 1 <= n) (b : Q) (ngen : nat) (kr : option (list Q)) (drs : nat -> nat -> mdraw).
Let g := fun x => as_min m (fit x).

Lemma sort_head_min l x f tl : Forall (fun xf : list Q * Q => (snd xf == g (fst xf))%Q) l -> sort_asc snd l = (x, f) :: tl ->
  min_of g (map fst l) x f /\ forall z v, In (z, v) l -> (f <= v)%Q.
Proof.
  intros F E. pose proof (sort_asc_sorted snd l) as So. rewrite E in So. inversion So as [|? ? _ Fa]; subst.
  assert (I : In (x, f) l) by (apply (in_sort_asc snd); rewrite E; simpl; auto).
  assert (Lo : forall z v, In (z, v) l -> (f <= v)%Q).
  { intros z v Hz. apply (in_sort_asc snd) in Hz. rewrite E in Hz. destruct Hz as [Hz|Hz].
    - inversion Hz; subst. apply Qle_refl.
    - rewrite Forall_forall in Fa. apply (Fa (z, v) Hz). }
  split; auto. rewrite Forall_forall in F. split; [apply (in_map fst) in I; exact I|]. split; [apply (F _ I)|].
  intros z Hz. apply in_map_iff in Hz. destruct Hz as ([z' v] & <- & Hz). simpl. pose proof (F _ Hz) as Fz. simpl in Fz. rewrite <- Fz. eauto.
Qed.

Definition lag_exact (log : list (list Q)) (h : list Q) : Prop :=
  forall k v, nth_error h k = Some v -> exists x, best_of m fit (firstn (n * max 1 k) log) x v.

Definition mfo_inv (init : list (list Q)) (k : nat) (st : mfo_state) : Prop :=
  Forall (feasible ds) (mf_pos st) /\ length (mf_pos st) = n /\
  tracks g (mf_best st) (mf_log st) /\
  Forall (feasible ds) (mf_log st) /\ length (mf_log st) = n * k /\
  (k = 0 -> mf_pos st = init) /\ (k <> 0 -> exists rest, mf_log st = init ++ rest) /\
  (k <> 0 -> exists early p, mf_log st = early ++ p /\ mf_prev st = combine p (map g p) /\ length p = n) /\
  (k <> 0 -> exists x f tl, mf_flames st = (x, f) :: tl /\ length (mf_flames st) = n /\
     Forall (fun xf => (snd xf == g (fst xf))%Q /\ In (fst xf) (firstn (n * max 1 (k - 1)) (mf_log st))) (mf_flames st) /\
     forall z, In z (firstn (n * max 1 (k - 1)) (mf_log st)) -> (f <= g z)%Q) /\
  length (mf_local st) = k /\ length (mf_global st) = k /\
  global_exact m fit n 1 (mf_log st) (mf_global st) /\ lag_exact (mf_log st) (mf_local st) /\
  (forall v, nth_error (mf_global st) (k - 1) = Some v -> exists x f, mf_best st = Some (x, f) /\ v = as_min m f).

Lemma mfo_flames_ok init k st : mfo_inv init k st -> forall fl,
  fl = (if S k =? 1 then sort_asc snd (combine (mf_pos st) (map g (mf_pos st))) else firstn n (sort_asc snd (mf_prev st ++ mf_flames st))) ->
  exists x f tl, fl = (x, f) :: tl /\ length fl = n /\
     Forall (fun xf => (snd xf == g (fst xf))%Q /\ In (fst xf) (firstn (n * max 1 k) (mf_log st ++ mf_pos st))) fl /\
     forall z, In z (firstn (n * max 1 k) (mf_log st ++ mf_pos st)) -> (f <= g z)%Q.
Proof.
  intros (A & B & C & D & E & F1 & F2 & G1 & G2 & _) fl Hfl. destruct (Nat.eq_dec k 0) as [->|Hk].
  - simpl in Hfl. assert (mf_log st = []) by (destruct (mf_log st); auto; simpl in E; lia).
    rewrite H. simpl app. replace (n * max 1 0) with n by (simpl; lia). rewrite firstn_all2 by lia.
    assert (Lf : length fl = n). { subst fl. rewrite sort_asc_length, combine_length, map_length. lia. }
    destruct fl as [|[x f] tl]; [simpl in Lf; lia|]. symmetry in Hfl.
    destruct (sort_head_min _ _ _ _ (combine_score g (mf_pos st)) Hfl) as ((M1 & M2 & M3) & Lo).
    rewrite combine_fst in M3 by (rewrite map_length; auto).
    exists x, f, tl. split; auto. split; auto. split; auto. apply Forall_forall. intros [z v] Hz.
    rewrite <- Hfl in Hz. apply in_sort_asc in Hz. pose proof (combine_score g (mf_pos st)) as Cs. rewrite Forall_forall in Cs.
    split; [apply (Cs _ Hz)|]. apply in_combine_l in Hz. exact Hz.
  - destruct (S k =? 1) eqn:Ek; [apply Nat.eqb_eq in Ek; lia|]. clear Ek.
    destruct (G1 Hk) as (early & p & P1 & P2 & P3). destruct (G2 Hk) as (x0 & f0 & tl0 & Q1 & Q2 & Q3 & Q4).
    replace (max 1 k) with k by lia. rewrite <- E, firstn_app, firstn_all, Nat.sub_diag, app_nil_r.
    assert (Le : length early = n * (k - 1)).
    { rewrite P1, app_length, P3 in E. replace k with (S (k - 1)) in E by lia. rewrite Nat.mul_succ_r in E. lia. }
    assert (Fa : Forall (fun xf : list Q * Q => (snd xf == g (fst xf))%Q /\ In (fst xf) (mf_log st)) (mf_prev st ++ mf_flames st)).
    { apply Forall_app. split.
      - rewrite P2. apply Forall_forall. intros [z v] Hz. pose proof (combine_score g p) as Cs. rewrite Forall_forall in Cs.
        split; [apply (Cs _ Hz)|]. apply in_combine_l in Hz. simpl. rewrite P1. apply in_or_app; auto.
      - eapply Forall_impl; [|exact Q3]. intros xf (U1 & U2). split; auto. eapply in_firstn; eauto. }
    set (so := sort_asc snd (mf_prev st ++ mf_flames st)) in *.
    assert (Ls : n <= length so).
    { unfold so. rewrite sort_asc_length, app_length, P2, combine_length, map_length, P3. lia. }
    destruct so as [|[x f] tl] eqn:Es; [simpl in Ls; lia|]. destruct n as [|n']; [lia|].
    assert (Fa1 : Forall (fun xf : list Q * Q => (snd xf == g (fst xf))%Q) (mf_prev st ++ mf_flames st)).
    { eapply Forall_impl; [|exact Fa]. intros xf U. apply U. }
    destruct (sort_head_min _ _ _ _ Fa1 Es) as ((M1 & M2 & M3) & Lo).
    exists x, f, (firstn n' tl). split; [subst fl; reflexivity|]. split; [subst fl; rewrite firstn_length; simpl in *; lia|]. split.
    + apply Forall_forall. intros xf Hx. rewrite Forall_forall in Fa. apply Fa. subst fl. apply in_firstn in Hx.
      apply (in_sort_asc snd). fold so. rewrite Es. exact Hx.
    + intros z Hz. rewrite P1 in Hz. apply in_app_or in Hz. destruct Hz as [Hz|Hz].
      * eapply Qle_trans; [apply (Lo x0 f0); apply in_or_app; right; rewrite Q1; simpl; auto|].
        apply Q4. rewrite P1. apply firstn_mono with (i := S n' * (k - 1)); [apply Nat.mul_le_mono_l; lia|].
        rewrite <- Le, firstn_app, firstn_all, Nat.sub_diag. apply in_or_app; auto.
      * apply M3. rewrite map_app. apply in_or_app. left. rewrite P2, combine_fst; auto. rewrite map_length; auto.
Qed.

Lemma mfo_step init k st st' : mfo_inv init k st -> mfo_gen expf cosf m fit ds mt n b ngen kr drs (1 + k) st = Some st' -> mfo_inv init (S k) st'.
Proof.
  intros I Hs. pose proof (mfo_flames_ok init k st I _ eq_refl) as HF.
  destruct I as (A & B & C & D & E & F1 & F2 & G1 & G2 & H1 & H2 & H3 & H4 & H5).
  unfold mfo_gen in Hs. cbv zeta in Hs. change (1 + k) with (S k) in Hs. rewrite (map_score m fit ds W _ A), (map_arg ds W _ A) in Hs.
  change (map (fun x => as_min m (fit x)) (mf_pos st)) with (map g (mf_pos st)) in Hs.
  set (fl := if S k =? 1 then _ else _) in *. 
  apply bind_Some in Hs. destruct Hs as ([fx score] & Ef & Hs). apply bind_Some in Hs. destruct Hs as (r & Er & Hs).
  apply bind_Some in Hs. destruct Hs as (pos & Ep & Hs). apply bind_Some in Hs. destruct Hs as ([bx bf] & Eb & Hs).
  inversion Hs; subst st'; clear Hs.
  destruct HF as (x & f & tl & HF1 & HF2 & HF3 & HF4). rewrite HF1 in Ef. simpl in Ef. inversion Ef; subst fx score. clear Ef.
  assert (T : tracks g (track (mf_best st) (combine (mf_pos st) (map g (mf_pos st)))) (mf_log st ++ map fst (combine (mf_pos st) (map g (mf_pos st))))).
  { apply track_tracks; [exact C|apply combine_score]. }
  rewrite combine_fst in T by (rewrite map_length; auto).
  apply traverse_feas in Ep.
  2: { intros i y z Hy Hz. unfold mfo_row in Hz. apply bind_Some in Hz. destruct Hz as ([s q] & _ & Hz).
       apply bind_Some in Hz. destruct Hz as (v & Ev & Hz). apply coords_length in Ev. eapply settle_ok; eauto. }
  destruct Ep as (Fp & Lp).
  unfold mfo_inv. cbn [mf_pos mf_best mf_log mf_flames mf_prev mf_local mf_global].
  assert (X : exists rest, mf_log st ++ mf_pos st = init ++ rest).
  { destruct (Nat.eq_dec k 0) as [->|Hk].
    - rewrite (F1 eq_refl). assert (mf_log st = []) by (destruct (mf_log st); auto; simpl in E; lia). rewrite H. exists []. rewrite app_nil_r. auto.
    - destruct (F2 Hk) as (rest & ->). exists (rest ++ mf_pos st). apply app_assoc_reverse. }
  assert (Hb : best_of m fit (mf_log st ++ mf_pos st) bx (as_min m bf)).
  { apply min_of_best. rewrite Eb in T. exact T. }
  replace (S k - 1) with k by lia.
  assert (Hx : In x (firstn (n * max 1 k) (mf_log st ++ mf_pos st)) /\ (f == g x)%Q).
  { rewrite HF1 in HF3. inversion HF3 as [|? ? (U1 & U2) _]; subst. auto. }
  split; [auto|]. split; [lia|]. split; [exact T|]. split; [apply Forall_app; auto|].
  split; [rewrite app_length, E, Nat.mul_succ_r; lia|]. split; [lia|]. split; [auto|].
  split; [intros _; exists (mf_log st), (mf_pos st); auto|].
  split; [intros _; exists x, f, tl; auto|].
  split; [rewrite app_length; simpl; lia|]. split; [rewrite app_length; simpl; lia|].
  split; [eapply global_exact_snoc; eauto; rewrite E, H2; f_equal; lia|]. split.
  - intros j v Hv. destruct (Nat.lt_ge_cases j (length (mf_local st))) as [L|L].
    + rewrite nth_error_app1 in Hv by lia. destruct (H4 _ _ Hv) as (z & Hz). exists z. rewrite firstn_app_le; auto.
      rewrite E. apply Nat.mul_le_mono_l. lia.
    + assert (j = length (mf_local st)). { assert (j < length (mf_local st ++ [as_min m f])) by (apply nth_error_Some; congruence). rewrite app_length in *; simpl in *; lia. }
      subst j. rewrite nth_error_app2, Nat.sub_diag in Hv by lia. inversion Hv; subst v. exists x. rewrite H1.
      apply min_of_best. split; [apply Hx|]. split; [apply Hx|]. exact HF4.
  - intros v Hv. rewrite nth_error_app2, H2, Nat.sub_diag in Hv by lia. inversion Hv. eauto.
Qed.

Lemma mfo_start_inv init : good_init ds n init -> mfo_inv init 0 (MfoSt init None [] [] [] [] []).
Proof.
  intros (L & F). unfold mfo_inv. cbn [mf_pos mf_best mf_log mf_flames mf_prev mf_local mf_global].
  repeat match goal with |- _ /\ _ => split end; auto; try lia; try (intros; lia).
  - reflexivity.
  - apply global_exact_nil.
  - intros [|j] v Hv; discriminate.
  - intros v Hv; discriminate.
Qed.

Lemma mfo_best_ok init r : good_init ds n init -> mfo_evolute expf cosf m fit ds mt n b ngen kr drs init = Some r ->
  report m fit ds n 1 ngen init (pr_log r) (pr_bx r) (pr_by r) (pr_hg r) (pr_pop r) (pr_pf r) /\
  length (pr_hl r) = ngen /\
  (forall k v, nth_error (pr_hl r) k = Some v -> exists x, best_of m fit (firstn (n * max 1 k) (pr_log r)) x v).
Proof.
  intros Gi H. unfold mfo_evolute in H. apply bind_Some in H. destruct H as (st & Eg & H).
  apply bind_Some in H. destruct H as ([bx bf] & Eb & H). inversion H; subst r; clear H.
  pose proof (mfo_start_inv init Gi) as I0.
  change 1 with (1 + 0) in Eg at 1. rewrite gens_shift in Eg.
  apply (gens_nat _ (mfo_inv init)) with (1 := fun k s s' => mfo_step init k s s') in Eg; auto. simpl in Eg.
  destruct Eg as (A & B & C & D & E & F1 & F2 & G1 & G2 & H1 & H2 & H3 & H4 & H5).
  assert (E0 : ngen <> 0).
  { intros Z. rewrite Z in E. rewrite Eb in C. simpl in C. destruct C as (C & _). destruct (mf_log st); [inversion C|simpl in E; lia]. }
  unfold report. cbn [pr_bx pr_by pr_hl pr_hg pr_pop pr_pf pr_log].
  destruct (G1 E0) as (early & p & P1 & P2 & P3).
  repeat match goal with |- _ /\ _ => split end; auto.
  - apply min_of_best. rewrite Eb in C. exact C.
  - rewrite E. f_equal. lia.
  - exists early. rewrite P2, combine_fst; auto. rewrite map_length; auto.
  - eapply global_exact_mono; eauto.
  - destruct (nth_error (mf_global st) (ngen - 1)) as [v|] eqn:Ev.
    + destruct (H5 _ eq_refl) as (x' & f' & X1 & ->). congruence.
    + apply nth_error_None in Ev. lia.
  - rewrite map_length, P2, combine_length, map_length. lia.
  - rewrite P2. clear. induction p; simpl; constructor; auto. apply as_min_invol.
Qed.

Lemma mfo_total init : good_init ds n init -> ngen <> 0 -> (forall l, kr = Some l -> length l = ngen) ->
  exists r, mfo_evolute expf cosf m fit ds mt n b ngen kr drs init = Some r.
Proof.
  intros Gi Hn Hk. unfold mfo_evolute. pose proof (mfo_start_inv init Gi) as I0.
  assert (X : exists st, gens (mfo_gen expf cosf m fit ds mt n b ngen kr drs) 1 ngen (MfoSt init None [] [] [] [] []) = Some st /\ mfo_inv init (0 + ngen) st).
  { change 1 with (1 + 0) at 1. rewrite gens_shift. apply gens_nat_total; auto.
    intros k s Hk0 I. assert (Y : exists s', mfo_gen expf cosf m fit ds mt n b ngen kr drs (1 + k) s = Some s').
    { pose proof (mfo_flames_ok init k s I _ eq_refl) as HF. destruct I as (A & B & C & D & _). unfold mfo_gen. cbv zeta.
      change (1 + k) with (S k). rewrite (map_score m fit ds W _ A), (map_arg ds W _ A).
      change (map (fun x => as_min m (fit x)) (mf_pos s)) with (map g (mf_pos s)).
      set (fl := if S k =? 1 then _ else _) in *. destruct HF as (x & f & tl & HF1 & HF2 & HF3 & HF4).
      replace (nth_error fl 0) with (Some (x, f)) by (rewrite HF1; reflexivity). cbn [bind].
      assert (exists r, mfo_r ngen (S k) kr = Some r) as (r & Er).
      { unfold mfo_r. destruct kr as [l|]; [|eauto]. rewrite (Hk l eq_refl), Nat.eqb_refl. destruct (nth_error l (S k - 1)) eqn:En; eauto.
        apply nth_error_None in En. rewrite (Hk l eq_refl) in En. lia. }
      rewrite Er. cbn [bind].
      destruct (traverse_total_idx (mfo_row expf cosf ds mt b r (anneal1 (S k) ngen) (flame_no n ngen (S k)) fl (drs (S k))) (mf_pos s) 0) as (pos & Ep).
      { intros i y Hi Hy. unfold mfo_row. cbv zeta.
        destruct (nth_error fl (if i <=? flame_no n ngen (S k) then i else flame_no n ngen (S k))) as [[sx sf]|] eqn:En.
        - cbn [bind]. assert (Fs : feasible ds sx).
          { apply nth_error_In in En. rewrite Forall_forall in HF3. apply HF3 in En. destruct En as (_ & En). apply in_firstn in En.
            simpl in En. apply in_app_or in En. rewrite Forall_forall in A, D. destruct En; auto. }
          match goal with |- context [coords ?f 0 ds y] => destruct (coords_total f ds 0 y) as (v & Ev & Lv) end.
          + apply feasible_length. rewrite Forall_forall in A. auto.
          + intros j d q Hj. simpl. destruct (feas_nth sx j d) as (z & Ez); auto. rewrite Ez. cbn [bind]. eauto.
          + rewrite Ev. cbn [bind]. destruct (settle_total expf ds W (anneal1 (S k) ngen) mt (m_vd (drs (S k) i)) v Lv DO) as (w & Ew & _). eauto.
        - apply nth_error_None in En. destruct (i <=? flame_no n ngen (S k)) eqn:El; [|apply Nat.leb_gt in El]; lia. }
      rewrite Ep. cbn [bind].
      destruct (track_Some (combine (mf_pos s) (map g (mf_pos s))) (mf_best s)) as ([bx bf] & Eb).
      { right. intros Z. apply (f_equal (@length _)) in Z. rewrite combine_length, map_length in Z. simpl in Z. lia. }
      rewrite Eb. cbn [bind]. eauto. }
    destruct Y as (s' & Y). exists s'. split; auto. eapply mfo_step; eauto. }
  destruct X as (st & Es & I). rewrite Es. cbn [bind].
  destruct I as (A & B & C & D & E & F1 & F2 & G1 & G2 & H1 & H2 & H3 & H4 & H5).
  destruct (nth_error (mf_global st) (0 + ngen - 1)) as [v|] eqn:Ev.
  - destruct (H5 _ eq_refl) as (x & f & X1 & _). rewrite X1. cbn [bind]. eauto.
  - apply nth_error_None in Ev. lia.
Qed.
End MFO.

(** * JAYA *)
Section JAYA.
Context (n : nat) (n1 : 1 <= n) (ngen : nat) (drs : nat -> nat -> jdraw).
Let g := fun x => as_max m (fit x).

Lemma scan_best fs : forall i j s, exists j' s', jaya_scan jaya_best1 i fs (Some (j, s)) = Some (j', s') /\ (s <= s')%Q /\
  Forall (fun f => (f <= s')%Q) fs /\ ((j' = j /\ s' = s) \/ exists t, j' = i + t /\ nth_error fs t = Some s').
Proof.
  induction fs as [|f fs IH]; intros i j s; simpl.
  - exists j, s. repeat split; auto. apply Qle_refl.
  - destruct (Qltb s f) eqn:E; qprop.
    + destruct (IH (S i) i f) as (j' & s' & E1 & E2 & E3 & E4). exists j', s'. split; auto. split; [lra|]. split; [constructor; auto|].
      right. destruct E4 as [(-> & ->)|(t & -> & Ht)]; [exists 0; split; [lia|auto]|exists (S t); split; [lia|auto]].
    + destruct (IH (S i) j s) as (j' & s' & E1 & E2 & E3 & E4). exists j', s'. split; auto. split; auto. split; [constructor; auto; lra|].
      destruct E4 as [E4|(t & -> & Ht)]; auto. right. exists (S t). split; [lia|auto].
Qed.
Lemma scan_worst fs : forall i j s, exists j' s', jaya_scan jaya_worst1 i fs (Some (j, s)) = Some (j', s') /\ (s' <= s)%Q /\
  Forall (fun f => (s' <= f)%Q) fs /\ ((j' = j /\ s' = s) \/ exists t, j' = i + t /\ nth_error fs t = Some s').
Proof.
  induction fs as [|f fs IH]; intros i j s; simpl.
  - exists j, s. repeat split; auto. apply Qle_refl.
  - destruct (Qltb f s) eqn:E; qprop.
    + destruct (IH (S i) i f) as (j' & s' & E1 & E2 & E3 & E4). exists j', s'. split; auto. split; [lra|]. split; [constructor; auto|].
      right. destruct E4 as [(-> & ->)|(t & -> & Ht)]; [exists 0; split; [lia|auto]|exists (S t); split; [lia|auto]].
    + destruct (IH (S i) j s) as (j' & s' & E1 & E2 & E3 & E4). exists j', s'. split; auto. split; auto. split; [constructor; auto; lra|].
      destruct E4 as [E4|(t & -> & Ht)]; auto. right. exists (S t). split; [lia|auto].
Qed.
Lemma scan_worst_same fs : forall i j s, Forall (fun f => (s <= f)%Q) fs -> jaya_scan jaya_worst1 i fs (Some (j, s)) = Some (j, s).
Proof.
  induction fs as [|f fs IH]; intros i j s F; simpl; auto. inversion F; subst.
  destruct (Qltb f s) eqn:E; qprop; auto. lra.
Qed.

Lemma keep_spec : forall new pos, length new = length pos ->
  let kept := map2 jaya_keep (combine new (map g new)) (combine pos (map g pos)) in
  length kept = length pos /\ map snd kept = map g (map fst kept) /\
  (forall t z, nth_error pos t = Some z -> exists z', nth_error (map fst kept) t = Some z' /\ (g z <= g z')%Q /\ (z' = z \/ (g z < g z')%Q)) /\
  (forall t z, nth_error new t = Some z -> exists z', nth_error (map fst kept) t = Some z' /\ (g z <= g z')%Q) /\
  (forall z, In z (map fst kept) -> In z new \/ In z pos).
Proof.
  induction new as [|a new IH]; intros [|p pos] L; try (simpl in L; lia).
  - simpl. repeat split; auto; try (intros [|t] z H; discriminate). 
  - destruct (IH pos ltac:(simpl in L; lia)) as (K1 & K2 & K3 & K4 & K5). cbv zeta in *.
    cbn [map combine map2]. set (K := map2 jaya_keep (combine new (map g new)) (combine pos (map g pos))) in *.
    unfold jaya_keep at 1 2 3 4 5 6. cbn [fst snd]. destruct (Qltb (g p) (g a)) eqn:E; qprop; cbn [map fst snd length].
    + split; [lia|]. split; [f_equal; auto|]. split; [|split].
      * intros [|t] z H; simpl in H; [inversion H; subst; exists a; simpl; split; auto; split; [lra|auto]|simpl; auto].
      * intros [|t] z H; simpl in H; [inversion H; subst; exists z; simpl; split; auto; lra|simpl; auto].
      * intros z [<-|H]; [simpl; auto|]. apply K5 in H. simpl; tauto.
    + split; [lia|]. split; [f_equal; auto|]. split; [|split].
      * intros [|t] z H; simpl in H; [inversion H; subst; exists z; simpl; split; auto; split; [lra|auto]|simpl; auto].
      * intros [|t] z H; simpl in H; [inversion H; subst; exists p; simpl; split; auto|simpl; auto].
      * intros z [<-|H]; [simpl; auto|]. apply K5 in H. simpl; tauto.
Qed.

Definition jaya_inv (init : list (list Q)) (k : nat) (st : jaya_state) : Prop :=
  Forall (feasible ds) (ja_pos st) /\ length (ja_pos st) = n /\ ja_fits st = map g (ja_pos st) /\
  (exists bi bs bx, ja_best st = Some (bi, bs) /\ nth_error (ja_pos st) bi = Some bx /\ max_of g (ja_log st) bx bs) /\
  (exists wi ws, ja_worst st = Some (wi, ws) /\ wi < n /\ Forall (fun f => (ws <= f)%Q) (ja_fits st)) /\
  ja_worst st = ja_worst (jaya_start m fit init) /\
  Forall (feasible ds) (ja_log st) /\ length (ja_log st) = n * S k /\
  (exists rest, ja_log st = init ++ rest) /\
  (k <> 0 -> (exists early, ja_log st = early ++ fst (ja_last st)) /\ length (fst (ja_last st)) = n /\ snd (ja_last st) = map g (fst (ja_last st))) /\
  length (ja_local st) = k /\ length (ja_scores st) = k /\
  global_exact m fit n 2 (ja_log st) (ja_scores st) /\ local_exact m fit n 2 (ja_log st) (ja_local st) /\
  (forall v, nth_error (ja_scores st) (k - 1) = Some v -> exists i s, ja_best st = Some (i, s) /\ v = as_max m s) /\
  incl (ja_pos st) (ja_log st).

Lemma jaya_start_inv init : good_init ds n init -> jaya_inv init 0 (jaya_start m fit init).
Proof.
  intros (L & F). unfold jaya_start. fold g. change (map (fun x => as_max m (fit x)) init) with (map g init).
  unfold jaya_inv. cbn [ja_pos ja_fits ja_best ja_worst ja_log ja_local ja_scores ja_last].
  destruct init as [|x0 init]; [simpl in L; lia|].
  repeat match goal with |- _ /\ _ => split end; auto; try lia.
  - cbn [map jaya_scan jaya_best1]. destruct (scan_best (map g init) 1 0 (g x0)) as (j & s & E1 & E2 & E3 & E4).
    assert (X : exists bx, nth_error (x0 :: init) j = Some bx /\ s = g bx).
    { destruct E4 as [(-> & ->)|(t & -> & Ht)]; [exists x0; auto|]. rewrite nth_error_map in Ht.
      destruct (nth_error init t) as [z|] eqn:Et; [|discriminate]. exists z. simpl. split; auto. inversion Ht; auto. }
    destruct X as (bx & X1 & ->). exists j, (g bx), bx. split; auto. split; auto. apply max_of_ext; [eapply nth_error_In; eauto|reflexivity|].
    intros z [<-|Hz]; auto. rewrite Forall_forall in E3. apply E3. apply in_map; auto.
  - cbn [map jaya_scan jaya_worst1]. destruct (scan_worst (map g init) 1 0 (g x0)) as (j & s & E1 & E2 & E3 & E4).
    exists j, s. split; auto. split; [|constructor; auto].
    destruct E4 as [(-> & ->)|(t & -> & Ht)]; [lia|]. assert (t < length (map g init)) by (apply nth_error_Some; congruence).
    rewrite map_length in H. simpl in L. lia.
  - exists []. rewrite app_nil_r; auto.
  - apply global_exact_nil.
  - apply local_exact_nil.
  - intros v Hv; discriminate.
  - apply incl_refl.
Qed.

Lemma jaya_step init k st st' : jaya_inv init k st -> jaya_gen expf m fit ds mt ngen drs (1 + k) st = Some st' ->
  jaya_inv init (S k) st' /\ Forall2 Qle (ja_fits st) (ja_fits st').
Proof.
  intros (A & B & C & D & E & Ew & F1 & F2 & F3 & F4 & G1 & G2 & G3 & G4 & G5 & G6) Hs. unfold jaya_gen in Hs.
  destruct D as (bi & bs & bx & D1 & D2 & D3). destruct E as (wi & ws & E1 & E2 & E3).
  rewrite D1 in Hs. cbn [bind] in Hs. rewrite E1 in Hs. cbn [bind] in Hs. rewrite D2 in Hs. cbn [bind] in Hs.
  apply bind_Some in Hs. destruct Hs as (wx & Ewx & Hs). apply bind_Some in Hs. destruct Hs as (new & En & Hs).
  cbv zeta in Hs. rewrite C in Hs. change (map (fun x => as_max m (fit x)) new) with (map g new) in Hs.
  apply traverse_feas in En.
  2: { intros i x y Hx Hy. unfold jaya_row in Hy. apply bind_Some in Hy. destruct Hy as (v & Ev & Hy). apply coords_length in Ev. eapply settle_ok; eauto. }
  destruct En as (Fn & Ln).
  destruct (keep_spec new (ja_pos st) Ln) as (K1 & K2 & K3 & K4 & K5). cbv zeta in K1, K2, K3, K4, K5.
  set (K := map2 jaya_keep (combine new (map g new)) (combine (ja_pos st) (map g (ja_pos st)))) in *.
  destruct (scan_best (map snd K) 0 bi bs) as (j & s & S1 & S2 & S3 & S4). rewrite S1 in Hs. cbn [bind] in Hs.
  assert (Up : Forall2 Qle (map g (ja_pos st)) (map g (map fst K))).
  { assert (LK : length (map fst K) = length (ja_pos st)) by (rewrite map_length; auto).
    revert K3 LK. generalize (map fst K) as q. clear. intros q. generalize (ja_pos st) as p. intros p. revert q.
    induction p as [|a p IH]; intros [|c q] K3 LK; simpl in LK; try lia; simpl; constructor.
    - destruct (K3 0 a eq_refl) as (z & Ez & Hz & _). simpl in Ez. inversion Ez; subst; auto.
    - apply IH; [|lia]. intros t z Hz. apply (K3 (S t) z Hz). }
  rewrite (scan_worst_same (map snd K) 0 wi ws) in Hs.
  2: { rewrite K2. rewrite C in E3. clear - Up E3. induction Up; constructor; inversion E3; subst; auto. lra. }
  apply bind_Some in Hs. destruct Hs as ([ai av] & Ea & Hs). inversion Hs; subst st'; clear Hs.
  apply max_of_argmax in Ea. destruct Ea as (ax & Eax & Ma).
  cbn [ja_pos ja_fits ja_best ja_worst ja_log ja_local ja_scores ja_last].
  split; [|rewrite C, K2; exact Up].
  assert (FK : Forall (feasible ds) (map fst K)).
  { apply Forall_forall. intros z Hz. apply K5 in Hz. rewrite Forall_forall in A, Fn. destruct Hz; auto. }
  assert (X : exists bx', nth_error (map fst K) j = Some bx' /\ s = g bx' \/ nth_error (map fst K) j = Some bx' /\ j = bi /\ s = bs /\ bx' = bx).
  { destruct S4 as [(-> & ->)|(t & -> & Ht)].
    - destruct (K3 _ _ D2) as (z & Ez & Hz1 & [->|Hz2]); [exists bx; right; auto|exfalso].
      rewrite K2 in S3. rewrite Forall_forall in S3. assert (In (g z) (map g (map fst K))) by (apply in_map; eapply nth_error_In; eauto).
      apply S3 in H. destruct D3 as (_ & D3 & _). lra.
    - rewrite K2 in Ht. simpl. rewrite nth_error_map in Ht. destruct (nth_error (map fst K) t) as [z|] eqn:Et; [|discriminate]. exists z. left. simpl in Ht. inversion Ht; auto. }
  assert (Y : exists bx', nth_error (map fst K) j = Some bx' /\ max_of g (ja_log st ++ new) bx' s).
  { destruct X as (bx' & X). exists bx'. assert (X1 : nth_error (map fst K) j = Some bx') by (destruct X as [X|X]; apply X). split; auto.
    assert (X2 : (s == g bx')%Q). { destruct X as [(_ & ->)|(_ & _ & -> & ->)]; [reflexivity|]. apply D3. }
    apply max_of_ext; auto.
    - apply nth_error_In in X1. apply K5 in X1. apply in_or_app. destruct X1 as [X1|X1]; auto.
    - intros z Hz. apply in_app_or in Hz. destruct Hz as [Hz|Hz].
      + destruct D3 as (_ & _ & D3). apply D3 in Hz. lra.
      + apply In_nth_error in Hz. destruct Hz as (t & Hz). destruct (K4 _ _ Hz) as (z' & Ez & Hz').
        rewrite K2 in S3. rewrite Forall_forall in S3. assert (In (g z') (map g (map fst K))) by (apply in_map; eapply nth_error_In; eauto).
        apply S3 in H. lra. }
  destruct Y as (bx' & Y1 & Y2).
  assert (Hb : best_of m fit (ja_log st ++ new) bx' (as_max m s)) by (apply max_of_best; exact Y2).
  assert (Hl : best_of m fit new ax (as_max m av)) by (apply max_of_best; exact Ma).
  unfold jaya_inv. cbn [ja_pos ja_fits ja_best ja_worst ja_log ja_local ja_scores ja_last fst snd].
  split; [auto|]. split; [rewrite map_length; lia|]. split; [auto|]. split; [exists j, s, bx'; auto|]. split.
  { exists wi, ws. split; auto. split; auto. rewrite K2. rewrite C in E3. clear - Up E3. induction Up; constructor; inversion E3; subst; auto. lra. }
  split; [rewrite <- Ew; auto|]. split; [apply Forall_app; auto|]. split; [rewrite app_length, F2, (Nat.mul_succ_r n (S k)); lia|].
  split. { destruct F3 as (rest & ->). exists (rest ++ new). apply app_assoc_reverse. }
  split. { intros _. split; [exists (ja_log st); auto|]. split; [lia|auto]. }
  split; [rewrite app_length; simpl; lia|]. split; [rewrite app_length; simpl; lia|].
  split; [eapply global_exact_snoc; eauto; [rewrite F2, G2; f_equal; lia|lia]|].
  split; [eapply local_exact_snoc; eauto; [rewrite F2, G1; f_equal; lia|lia]|].
  split. { intros v Hv. replace (S k - 1) with k in Hv by lia. rewrite nth_error_app2, G2, Nat.sub_diag in Hv by lia. inversion Hv. eauto. }
  intros z Hz. apply K5 in Hz. apply in_or_app. destruct Hz; auto.
Qed.

Lemma jaya_best_ok init r : good_init ds n init -> jaya_evolute expf m fit ds mt ngen drs init = Some r ->
  report m fit ds n 2 ngen init (pr_log r) (pr_bx r) (pr_by r) (pr_hg r) (pr_pop r) (pr_pf r) /\
  length (pr_hl r) = ngen /\ local_exact m fit n 2 (pr_log r) (pr_hl r).
Proof.
  intros Gi H. unfold jaya_evolute in H. destruct (ngen =? 0) eqn:E0; [discriminate|]. apply Nat.eqb_neq in E0.
  apply bind_Some in H. destruct H as (st & Eg & H).
  pose proof (jaya_start_inv init Gi) as I0.
  change 1 with (1 + 0) in Eg at 1. rewrite gens_shift in Eg.
  apply (gens_nat _ (jaya_inv init)) with (1 := fun k s s' I E => proj1 (jaya_step init k s s' I E)) in Eg; auto. simpl in Eg.
  destruct Eg as (A & B & C & D & E & Ew & F1 & F2 & F3 & F4 & G1 & G2 & G3 & G4 & G5 & G6).
  destruct D as (bi & bs & bx & D1 & D2 & D3). rewrite D1 in H. cbn [bind] in H. rewrite D2 in H. cbn [bind] in H. inversion H; subst r; clear H.
  destruct (F4 E0) as (P1 & P2 & P3).
  unfold report. cbn [pr_bx pr_by pr_hl pr_hg pr_pop pr_pf pr_log].
  repeat match goal with |- _ /\ _ => split end; auto.
  - apply max_of_best. exact D3.
  - rewrite F2. f_equal. lia.
  - eapply global_exact_mono; eauto.
  - destruct (nth_error (ja_scores st) (ngen - 1)) as [v|] eqn:Ev.
    + destruct (G5 _ eq_refl) as (x' & f' & X1 & ->). congruence.
    + apply nth_error_None in Ev. lia.
  - rewrite P3. clear. induction (fst (ja_last st)); simpl; constructor; auto. apply as_max_invol.
Qed.

Lemma jaya_total init : good_init ds n init -> ngen <> 0 -> exists r, jaya_evolute expf m fit ds mt ngen drs init = Some r.
Proof.
  intros Gi Hn. unfold jaya_evolute. replace (ngen =? 0) with false by (symmetry; apply Nat.eqb_neq; auto).
  pose proof (jaya_start_inv init Gi) as I0.
  assert (X : exists st, gens (jaya_gen expf m fit ds mt ngen drs) 1 ngen (jaya_start m fit init) = Some st /\ jaya_inv init (0 + ngen) st).
  { change 1 with (1 + 0) at 1. rewrite gens_shift. apply gens_nat_total; auto.
    intros k s Hk0 I. assert (Y : exists s', jaya_gen expf m fit ds mt ngen drs (1 + k) s = Some s').
    { destruct I as (A & B & C & D & E & _). destruct D as (bi & bs & bx & D1 & D2 & D3). destruct E as (wi & ws & E1 & E2 & E3).
      unfold jaya_gen. rewrite D1. cbn [bind]. rewrite E1. cbn [bind]. rewrite D2. cbn [bind].
      destruct (nth_error (ja_pos s) wi) as [wx|] eqn:Ewx; [|apply nth_error_None in Ewx; lia]. cbn [bind].
      assert (Fb : feasible ds bx) by (eapply row_feas; eauto). assert (Fw : feasible ds wx) by (eapply row_feas; eauto).
      destruct (traverse_total_idx (jaya_row expf ds mt (anneal1 (1 + k) ngen) bx wx (drs (1 + k))) (ja_pos s) 0) as (new & En).
      { intros i y Hi Hy. unfold jaya_row. cbv zeta.
        match goal with |- context [coords ?f 0 ds y] => destruct (coords_total f ds 0 y) as (v & Ev & Lv) end.
        + apply feasible_length. rewrite Forall_forall in A. auto.
        + intros j d q Hj. simpl. destruct (feas_nth bx j d) as (z & Ez); auto. rewrite Ez. cbn [bind].
          destruct (feas_nth wx j d) as (z' & Ez'); auto. rewrite Ez'. cbn [bind]. eauto.
        + rewrite Ev. cbn [bind]. destruct (settle_total expf ds W (anneal1 (1 + k) ngen) mt (j_vd (drs (1 + k) i)) v Lv DO) as (w & Ew' & _). eauto. }
      rewrite En. cbn [bind]. cbv zeta.
      match goal with |- context [jaya_scan jaya_best1 0 ?l (Some (bi, bs))] => destruct (scan_best l 0 bi bs) as (j & sc & S1 & _) end.
      rewrite S1. cbn [bind].
      destruct (argmax_Some (map (fun x => as_max m (fit x)) new)) as (ai & af & Ea).
      { apply traverse_feas in En.
        - destruct En as (_ & Ln). intros Z. apply map_eq_nil in Z. rewrite Z in Ln. simpl in Ln. lia.
        - intros i x y Hx Hy. unfold jaya_row in Hy. apply bind_Some in Hy. destruct Hy as (v & Ev & Hy). apply coords_length in Ev. eapply settle_ok; eauto. }
      rewrite Ea. cbn [bind]. eauto. }
    destruct Y as (s' & Y). exists s'. split; auto. eapply jaya_step; eauto. }
  destruct X as (st & Es & I). rewrite Es. cbn [bind].
  destruct I as (A & B & C & D & _). destruct D as (bi & bs & bx & D1 & D2 & D3). rewrite D1. cbn [bind]. rewrite D2. cbn [bind]. eauto.
Qed.

Lemma jaya_rows init k st st' : good_init ds n init -> gens (jaya_gen expf m fit ds mt ngen drs) 1 k (jaya_start m fit init) = Some st ->
  jaya_gen expf m fit ds mt ngen drs (S k) st = Some st' ->
  Forall2 (fun x f => (f == as_max m (fit x))%Q) (ja_pos st) (ja_fits st) /\
  Forall2 Qle (ja_fits st) (ja_fits st') /\ ja_worst st = ja_worst (jaya_start m fit init).
Proof.
  intros Gi Eg Hs. pose proof (jaya_start_inv init Gi) as I0.
  change 1 with (1 + 0) in Eg at 1. rewrite gens_shift in Eg.
  apply (gens_nat _ (jaya_inv init)) with (1 := fun k s s' I E => proj1 (jaya_step init k s s' I E)) in Eg; auto. simpl in Eg.
  change (S k) with (1 + k) in Hs. destruct (jaya_step _ _ _ _ Eg Hs) as (_ & U).
  destruct Eg as (A & B & C & D & E & Ew & _). split; [|auto]. rewrite C. clear. induction (ja_pos st); simpl; constructor; auto. reflexivity.
Qed.
End JAYA.
End P.
