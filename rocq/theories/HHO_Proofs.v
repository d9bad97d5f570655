(** Proofs about Harris hawks. *)
From Coq Require Import List Arith ZArith QArith Qabs Bool Lia Lqa.
From Verif Require Import Base BaseFacts Space_Model Space_Spec Space_Facts Opt_Model Opt_Spec Opt_Facts Opt_Facts2
  Pop_Model Pop_Spec Pop_Proofs Swarm_Model Swarm_Proofs HHO_Model.
Import ListNotations.
Open Scope nat_scope.

Lemma in_firstn_iff {A} (l : list A) x : forall n, In x (firstn n l) <-> exists i, i < n /\ nth_error l i = Some x.
Proof.
  induction l as [|a l IH]; intros [|n]; simpl; split; try tauto; try (intros (i & Hi & _); lia).
  - intros (i & _ & Hi). destruct i; discriminate.
  - intros [->|H]; [exists 0; split; auto; lia|]. apply IH in H. destruct H as (i & Hi & H). exists (S i). split; auto; lia.
  - intros (i & Hi & H). destruct i; simpl in H; [left; congruence|]. right. apply IH. exists i. split; auto; lia.
Qed.
Lemma nth_error_skip {A} (l : list A) : forall n i, nth_error (skipn n l) i = nth_error l (n + i).
Proof. induction l; intros [|n] i; simpl; auto. destruct i; auto. Qed.
Lemma nth_error_set_nth_eq {A} (l : list A) i x : i < length l -> nth_error (set_nth l i x) i = Some x.
Proof. intros H. rewrite nth_error_set_nth, Nat.eqb_refl. destruct (Nat.ltb_spec i (length l)); auto; lia. Qed.
Lemma nth_error_set_nth_neq {A} (l : list A) i j x : i <> j -> nth_error (set_nth l j x) i = nth_error l i.
Proof. intros H. rewrite nth_error_set_nth. destruct (Nat.eqb_spec i j); [congruence|]. auto. Qed.

(** The running minimum of an exact local history is an exact global history. *)
Lemma accumulate_exact m fit n log h : 1 <= n -> length log = n * length h -> local_exact m fit n 1 log h -> global_exact m fit n 1 log (accumulate (acc_op m) h).
Proof.
  intros Hn Ll L k v Hk. apply accumulate_spec in Hk. destruct Hk as (G & Hin).
  apply in_firstn_iff in Hin. destruct Hin as (j & Hj & Ej). destruct (L _ _ Ej) as (x & X1 & X2 & X3).
  replace (n * (j + 1 - 1)) with (n * j) in X1 by (f_equal; lia).
  assert (Lj : j < length h) by (apply nth_error_Some; congruence).
  exists x. split; [|split; auto].
  - apply in_firstn_iff in X1. destruct X1 as (p & Hp & Ep). rewrite nth_error_skip in Ep.
    apply in_firstn_iff. exists (n * j + p). split; auto. replace (k + 1) with (S k) by lia.
    apply Nat.lt_le_trans with (n * S j); [rewrite Nat.mul_succ_r; lia|]. apply Nat.mul_le_mono_l. lia.
  - intros z Hz. apply in_firstn_iff in Hz. destruct Hz as (p & Hp & Ep).
    assert (Pl : p < length log) by (apply nth_error_Some; congruence).
    assert (Dv : p = n * (p / n) + p mod n) by (apply Nat.div_mod; lia).
    assert (Dm : p mod n < n) by (apply Nat.mod_upper_bound; lia).
    assert (Qk : p / n < k + 1) by (apply Nat.div_lt_upper_bound; lia).
    assert (Qh : p / n < length h) by (apply Nat.div_lt_upper_bound; lia).
    destruct (nth_error h (p / n)) as [w|] eqn:Ew; [|apply nth_error_None in Ew; lia].
    destruct (L _ _ Ew) as (xw & _ & _ & Xw). replace (n * (p / n + 1 - 1)) with (n * (p / n)) in Xw by (f_equal; lia).
    eapply as_good_trans; [apply (G w)|apply Xw].
    + apply in_firstn_iff. exists (p / n). split; auto. lia.
    + apply in_firstn_iff. exists (p mod n). split; auto. rewrite nth_error_skip. rewrite <- Dv. auto.
Qed.

(** Row-wise loops that do not look at the other rows. *)
Lemma rows_pointwise (f : nat -> list Q -> option (list Q)) n ps pos :
  rows_loop (fun i _ x => f i x) n ps = Some pos ->
  length pos = length ps /\ forall i x, nth_error ps i = Some x -> i < n -> exists y, f i x = Some y /\ nth_error pos i = Some y.
Proof.
  unfold rows_loop. intros H.
  apply (gens_nat _ (fun k s => length s = length ps /\ (forall i x, nth_error ps i = Some x -> i < k -> exists y, f i x = Some y /\ nth_error s i = Some y) /\
     (forall i, k <= i -> nth_error s i = nth_error ps i))) in H.
  - simpl in H. destruct H as (A & B & _). auto.
  - intros k s s' (A & B & C) E. apply bind_Some in E. destruct E as (x & Ex & E). apply bind_Some in E. destruct E as (y & Ey & E).
    inversion E; subst s'; clear E. rewrite length_set_nth. split; auto.
    assert (Lk : k < length s) by (apply nth_error_Some; congruence).
    split.
    + intros i z Hz Hi. destruct (Nat.eq_dec i k) as [->|Ne].
      * rewrite C in Ex by lia. rewrite nth_error_set_nth_eq by auto. exists y. split; auto. congruence.
      * rewrite nth_error_set_nth_neq by lia. apply B; auto. lia.
    + intros i Hi. rewrite nth_error_set_nth_neq by lia. apply C. lia.
  - split; auto. split; auto. intros; lia.
Qed.

(** settle leaves feasible points alone under nearest_int. *)
Lemma settle_same expf ds a dr v w : wf_dims ds -> feasible ds v -> settle expf a NearestInt dr ds v = Some w -> Forall2 Qeq v w.
Proof.
  intros W F H. unfold settle in H. change (bnds ds) with (dim_bounds ds) in H. rewrite clip_id in H; auto using feasible_inside.
  destruct (ensure_discrete_ok expf a NearestInt (vd_rand dr) (vd_pick dr) ds v ltac:(discriminate) W ltac:(auto) (feasible_inside _ _ F)) as (w' & E & Fw & Hw).
  rewrite E in H. inversion H; subst w'; clear H E. clear W. revert w Fw Hw. induction F as [|d x ds v (A & B & C) F IH]; intros w Fw Hw.
  - inversion Fw; subst. constructor.
  - inversion Fw as [|? y ? w' Hy Fw']; subst. constructor.
    + destruct (Hw 0 d x y eq_refl eq_refl eq_refl) as (H1 & H2). destruct (d_int d).
      * rewrite (H2 eq_refl eq_refl). symmetry. apply is_int_trunc. auto.
      * rewrite (H1 eq_refl). reflexivity.
    + apply IH; auto. intros i. apply (Hw (S i)).
Qed.

Section P.
Context (expf : Q -> Q) (m : mode) (fit : list Q -> Q) (ds : list dimn) (mt : imethod).
Context (W : wf_dims ds) (DO : discrete_ok mt ds) (n : nat).
Local Notation g := (fun x => as_min m (fit x)).
Local Notation dim := (length ds).

Lemma explore_len d rab ps x v : hho_explore ds n d rab ps x = Some v -> length v = dim.
Proof. unfold hho_explore. intros H. apply bind_Some in H. destruct H as (rh & _ & H). destruct (Qltb _ _); apply coords_length in H; auto. Qed.
Lemma pounce_len d E rab x v : hho_pounce ds d E rab x = Some v -> length v = dim.
Proof. unfold hho_pounce. intros H. destruct (Qltb _ _); apply coords_length in H; auto. Qed.

Lemma dive_ok a d E rab f ps x v new : length x = dim -> hho_dive expf m fit ds mt a d E rab f ps x = Some (v, new) ->
  length v = dim /\ Forall (feasible ds) new /\ forall z, In z new -> (f <= g z)%Q \/ (v = z /\ feasible ds v).
Proof.
  intros Lx H. unfold hho_dive in H. cbv zeta in H.
  apply bind_Some in H. destruct H as (u & Eu & H). apply coords_length in Eu.
  apply bind_Some in H. destruct H as (y & Ey & H). pose proof (settle_ok expf ds mt W DO _ _ _ _ Eu Ey) as Fy.
  rewrite (pt_score_feasible m fit ds W y Fy), (pt_arg_feasible ds W y Fy) in H.
  destruct (Qltb (as_min m (fit y)) f) eqn:E1.
  - inversion H; subst. split; [apply feasible_length; auto|]. split; [auto|]. intros z [<-|[]]. auto.
  - apply bind_Some in H. destruct H as (u' & Eu' & H). apply coords_length in Eu'.
    apply bind_Some in H. destruct H as (z & Ez & H). pose proof (settle_ok expf ds mt W DO _ _ _ _ Eu' Ez) as Fz.
    rewrite (pt_score_feasible m fit ds W z Fz), (pt_arg_feasible ds W z Fz) in H.
    qprop. inversion H; subst v new; clear H. split; [|split].
    + destruct (Qltb _ _); [apply feasible_length|]; auto.
    + auto.
    + intros t [<-|[<-|[]]]; auto. destruct (Qltb (as_min m (fit z)) f) eqn:E2; qprop; auto.
Qed.

Definition loop_inv (fits : list Q) (k : nat) (s : list (list Q) * list (list Q)) : Prop :=
  length (fst s) = n /\ Forall (fun r => length r = dim) (fst s) /\ Forall (feasible ds) (snd s) /\
  forall z, In z (snd s) -> (exists i f, nth_error fits i = Some f /\ (f <= g z)%Q) \/ (exists i, i < k /\ nth_error (fst s) i = Some z).

Lemma hawk_step E1 a rab fits dr k s s' : loop_inv fits k s -> hho_hawk expf m fit ds mt n E1 a rab fits dr k s = Some s' -> loop_inv fits (S k) s'.
Proof.
  destruct s as [ps dv]. intros (A & B & C & D) H. unfold hho_hawk in H. cbv zeta in H. cbn [fst snd] in *.
  apply bind_Some in H. destruct H as (x & Ex & H).
  assert (Lk : k < length ps) by (apply nth_error_Some; congruence).
  assert (Lx : length x = dim). { rewrite Forall_forall in B. apply B. eapply nth_error_In; eauto. }
  assert (Old : forall v z, In z dv -> (exists i f, nth_error fits i = Some f /\ (f <= g z)%Q) \/ (exists i, i < S k /\ nth_error (set_nth ps k v) i = Some z)).
  { intros v z Hz. destruct (D z Hz) as [?|(i & Hi & Ei)]; auto. right. exists i. split; [lia|]. rewrite nth_error_set_nth_neq; auto; lia. }
  assert (Sim : forall v, length v = dim -> loop_inv fits (S k) (set_nth ps k v, dv)).
  { intros v Lv. unfold loop_inv. cbn [fst snd]. split; [rewrite length_set_nth; auto|]. split; [apply Forall_set_nth; auto|]. split; auto. }
  destruct (Qle_bool 1 _).
  - apply bind_Some in H. destruct H as (v & Ev & H). inversion H; subst s'. apply Sim. eapply explore_len; eauto.
  - destruct (Qle_bool (1#2) (h_r (dr k))).
    + apply bind_Some in H. destruct H as (v & Ev & H). inversion H; subst s'. apply Sim. eapply pounce_len; eauto.
    + apply bind_Some in H. destruct H as (f & Ef & H). apply bind_Some in H. destruct H as ([v new] & Ev & H). inversion H; subst s'; clear H.
      apply dive_ok in Ev; auto. destruct Ev as (Lv & Fn & Cn). unfold loop_inv. cbn [fst snd].
      split; [rewrite length_set_nth; auto|]. split; [apply Forall_set_nth; auto|]. split; [apply Forall_app; auto|].
      intros z Hz. apply in_app_or in Hz. destruct Hz as [Hz|Hz]; auto. destruct (Cn z Hz) as [?|(-> & _)]; [left; eauto|].
      right. exists k. split; [lia|]. apply nth_error_set_nth_eq; auto.
Qed.

Definition hho_inv (init : list (list Q)) (k : nat) (st : hho_state) : Prop :=
  Forall (feasible ds) (hh_pos st) /\ length (hh_pos st) = n /\
  tracks g (hh_rab st) (hh_log st) /\ Forall (feasible ds) (hh_log st) /\ length (hh_log st) = n * k /\
  (k = 0 -> hh_pos st = init) /\ (k <> 0 -> exists rest, hh_log st = init ++ rest) /\
  (k <> 0 -> exists early p, hh_log st = early ++ p /\ hh_last st = combine p (map g p) /\ length p = n) /\
  length (hh_local st) = k /\ local_exact m fit n 1 (hh_log st) (hh_local st) /\
  Forall (feasible ds) (hh_old st) /\ Forall (feasible ds) (hh_new st) /\
  (mt = NearestInt -> respects fit ->
     (forall z, In z (hh_old st) -> exists w, In w (hh_log st) /\ (g w <= g z)%Q) /\
     (forall z, In z (hh_new st) -> exists w, In w (hh_log st ++ hh_pos st) /\ (g w <= g z)%Q)).

Lemma hho_step ngen ke drs init k st st' : hho_inv init k st -> hho_gen expf m fit ds mt n ngen ke drs k st = Some st' -> hho_inv init (S k) st'.
Proof.
  intros (A & B & C & D & E & F1 & F2 & G1 & G2 & G3 & H1 & H2 & H3) H. unfold hho_gen in H. cbv zeta in H.
  rewrite (map_score m fit ds W _ A), (map_arg ds W _ A) in H.
  apply bind_Some in H. destruct H as (E1 & _ & H). apply bind_Some in H. destruct H as ([ix lo] & Ea & H).
  apply bind_Some in H. destruct H as ([rx rf] & Er & H). apply bind_Some in H. destruct H as ([ps dv] & El & H).
  apply bind_Some in H. destruct H as (pos & Ep & H). inversion H; subst st'; clear H.
  assert (T : tracks g (track (hh_rab st) (combine (hh_pos st) (map g (hh_pos st)))) (hh_log st ++ map fst (combine (hh_pos st) (map g (hh_pos st))))).
  { apply track_tracks; [exact C|apply (combine_score g)]. }
  rewrite combine_fst in T by (rewrite map_length; auto).
  apply min_of_argmin in Ea. destruct Ea as (z0 & _ & M0).
  apply (gens_nat _ (loop_inv (map g (hh_pos st)))) with (1 := fun k s s' => hawk_step _ _ _ _ _ k s s') in El.
  2:{ unfold loop_inv. cbn [fst snd]. split; auto. split; [eapply Forall_impl; [|exact A]; intros; apply feasible_length; auto|]. split; [auto|]. simpl; tauto. }
  simpl in El. destruct El as (L1 & L2 & L3 & L4). cbn [fst snd] in *.
  destruct (rows_pointwise (fun i x => settle expf (anneal1 k ngen) mt (h_vd (drs k i)) ds x) n ps pos Ep) as (Lp & Pw).
  assert (Fp : Forall (feasible ds) pos).
  { apply Forall_forall. intros y Hy. apply In_nth_error in Hy. destruct Hy as (i & Hi).
    assert (Li : i < length ps) by (rewrite <- Lp; apply nth_error_Some; congruence).
    destruct (nth_error ps i) as [x|] eqn:Ex; [|apply nth_error_None in Ex; lia].
    destruct (Pw i x Ex ltac:(lia)) as (y' & Es & Ey). rewrite Hi in Ey. inversion Ey; subst y'.
    eapply settle_ok; eauto. rewrite Forall_forall in L2. apply L2. eapply nth_error_In; eauto. }
  unfold hho_inv. cbn [hh_pos hh_rab hh_last hh_local hh_log hh_old hh_new].
  split; [auto|]. split; [lia|]. split; [exact T|]. split; [apply Forall_app; auto|]. split; [rewrite app_length, E, Nat.mul_succ_r; lia|].
  split; [lia|]. split.
  { intros _. destruct (Nat.eq_dec k 0) as [->|Hk].
    - rewrite (F1 eq_refl). assert (hh_log st = []) by (destruct (hh_log st); auto; simpl in E; lia). rewrite H. exists []. rewrite app_nil_r. auto.
    - destruct (F2 Hk) as (rest & ->). exists (rest ++ hh_pos st). apply app_assoc_reverse. }
  split; [intros _; exists (hh_log st), (hh_pos st); auto|].
  split; [rewrite app_length; simpl; lia|].
  split. { eapply local_exact_snoc; eauto; [rewrite E, G2; f_equal; lia|]. apply min_of_best. exact M0. }
  split; [apply Forall_app; auto|]. split; [auto|].
  intros Hmt Hr. destruct (H3 Hmt Hr) as (O1 & O2). split.
  - intros z Hz. apply in_app_or in Hz. destruct Hz as [Hz|Hz]; auto. destruct (O1 z Hz) as (w & Hw & Lw). exists w. split; auto. apply in_or_app; auto.
  - intros z Hz. destruct (L4 z Hz) as [(i & f & Hf & Lf)|(i & Hi & Ez)].
    + rewrite nth_error_map in Hf. destruct (nth_error (hh_pos st) i) as [w|] eqn:Ew; [|discriminate]. inversion Hf; subst f.
      exists w. split; auto. apply in_or_app. left. apply in_or_app. right. eapply nth_error_In; eauto.
    + destruct (Pw i z Ez Hi) as (y & Es & Ey). exists y. split; [apply in_or_app; right; eapply nth_error_In; eauto|].
      rewrite Hmt in Es. apply settle_same in Es; auto; [|rewrite Forall_forall in L3; auto]. apply Hr in Es. rewrite Es. lra.
Qed.

Lemma hho_start init : good_init ds n init -> hho_inv init 0 (HhoSt init None [] [] [] [] []).
Proof.
  intros (L & F). unfold hho_inv. cbn [hh_pos hh_rab hh_last hh_local hh_log hh_old hh_new].
  split; auto. split; auto. split; [reflexivity|]. split; auto. split; [simpl; lia|]. split; auto. split; [lia|]. split; [lia|].
  split; auto. split; [apply local_exact_nil|]. split; auto. split; auto. simpl. split; tauto.
Qed.

Lemma hho_best_ok ngen ke drs init r : 1 <= n -> good_init ds n init -> hho_evolute expf m fit ds mt n ngen ke drs init = Some r ->
  best_of m fit (hr_log r) (hr_x r) (hr_y r) /\ Forall (feasible ds) (hr_log r ++ hr_dives r ++ hr_last_dives r) /\
  length (hr_log r) = n * ngen /\ (exists rest, hr_log r = init ++ rest) /\ (exists early, hr_log r = early ++ hr_pop r) /\
  length (hr_hg r) = ngen /\ global_exact m fit n 1 (hr_log r) (hr_hg r) /\ never_worse m (hr_hg r) /\
  (exists v, nth_error (hr_hg r) (ngen - 1) = Some v /\ (v == hr_y r)%Q) /\
  length (hr_hl r) = ngen /\ local_exact m fit n 1 (hr_log r) (hr_hl r) /\
  length (hr_pop r) = n /\ Forall2 (fun z v => (v == fit z)%Q) (hr_pop r) (hr_pf r).
Proof.
  intros Hn Gi H. unfold hho_evolute in H. apply bind_Some in H. destruct H as (st & Eg & H).
  apply bind_Some in H. destruct H as ([x f] & Eb & H). inversion H; subst r; clear H.
  apply (gens_nat _ (hho_inv init)) with (1 := fun k s s' => hho_step ngen ke drs init k s s') in Eg; [|apply hho_start; auto]. simpl in Eg.
  destruct Eg as (A & B & C & D & E & F1 & F2 & G1 & G2 & G3 & H1 & H2 & _).
  rewrite Eb in C. simpl in C.
  assert (E0 : ngen <> 0).
  { intros Z. rewrite Z in E. destruct C as (C & _). destruct (hh_log st); [inversion C|simpl in E; lia]. }
  destruct (G1 E0) as (early & p & P1 & P2 & P3).
  cbn [hr_x hr_y hr_hl hr_hg hr_pop hr_pf hr_log hr_dives hr_last_dives].
  change (match m with Mmin => qmin2 | Mmax => qmax2 end) with (acc_op m).
  assert (GE : global_exact m fit n 1 (hh_log st) (accumulate (acc_op m) (hh_local st))).
  { apply accumulate_exact; auto. rewrite E, G2. auto. }
  assert (BO : best_of m fit (hh_log st) x (as_min m f)) by (apply min_of_best; exact C).
  repeat match goal with |- _ /\ _ => split end; auto.
  - repeat (apply Forall_app; split; auto).
  - exists early. rewrite P2, combine_fst; auto. rewrite map_length; auto.
  - rewrite accumulate_length. auto.
  - eapply global_exact_mono; eauto.
  - destruct (nth_error (accumulate (acc_op m) (hh_local st)) (ngen - 1)) as [v|] eqn:Ev.
    + exists v. split; auto. destruct (GE _ _ Ev) as (z & Z1 & Z2 & Z3). rewrite firstn_all2 in Z1, Z3 by (rewrite E; apply Nat.mul_le_mono_l; lia).
      destruct BO as (B1 & B2 & B3). pose proof (Z3 _ B1) as K1. pose proof (B3 _ Z1) as K2.
      rewrite Z2, B2. destruct m; simpl in *; lra.
    + apply nth_error_None in Ev. rewrite accumulate_length in Ev. lia.
  - rewrite map_length, P2, combine_length, map_length. lia.
  - rewrite P2. clear. induction p; simpl; constructor; auto. apply as_min_invol.
Qed.

(** Dives of all generations but the last cannot beat the returned value under nearest_int. *)
Lemma hho_dives_ok ngen ke drs init r : mt = NearestInt -> respects fit -> good_init ds n init ->
  hho_evolute expf m fit ds mt n ngen ke drs init = Some r ->
  best_of m fit (hr_log r ++ hr_dives r) (hr_x r) (hr_y r).
Proof.
  intros Hmt Hr Gi H. unfold hho_evolute in H. apply bind_Some in H. destruct H as (st & Eg & H).
  apply bind_Some in H. destruct H as ([x f] & Eb & H). inversion H; subst r; clear H.
  apply (gens_nat _ (hho_inv init)) with (1 := fun k s s' => hho_step ngen ke drs init k s s') in Eg; [|apply hho_start; auto]. simpl in Eg.
  destruct Eg as (A & B & C & D & E & F1 & F2 & G1 & G2 & G3 & H1 & H2 & H3). destruct (H3 Hmt Hr) as (O1 & _).
  rewrite Eb in C. simpl in C. destruct C as (C1 & C2 & C3). cbn [hr_x hr_y hr_log hr_dives].
  apply min_of_best. split; [apply in_or_app; auto|]. split; auto.
  intros z Hz. apply in_app_or in Hz. destruct Hz as [Hz|Hz]; auto. destruct (O1 z Hz) as (w & Hw & Lw). specialize (C3 w Hw). cbv beta in *. lra.
Qed.

(** Totality. *)
Lemma nth_len {A} (l : list A) j : j < length l -> exists a, nth_error l j = Some a.
Proof. intros H. destruct (nth_error l j) eqn:E; eauto. apply nth_error_None in E. lia. Qed.
Lemma coords_ok (f : nat -> dimn -> Q -> option Q) x : length x = dim -> (forall j d a, j < dim -> exists b, f j d a = Some b) -> exists y, coords f 0 ds x = Some y /\ length y = dim.
Proof. intros L H. apply coords_total; auto. intros i d a Hi. apply H. change (i < dim). apply nth_error_Some. rewrite Hi. discriminate. Qed.

Lemma hawk_total E1 a rab fits dr k s : 1 <= n -> k < n -> length fits = n -> length rab = dim -> loop_inv fits k s -> exists s', hho_hawk expf m fit ds mt n E1 a rab fits dr k s = Some s'.
Proof.
  destruct s as [ps dv]. intros Hn Hk Lf Lr (A & B & _). unfold hho_hawk. cbn [fst snd] in *. cbv zeta.
  destruct (nth_len ps k) as (x & Ex); [lia|]. rewrite Ex. cbn [bind].
  assert (Row : forall i r, nth_error ps i = Some r -> length r = dim). { intros i r Hi. rewrite Forall_forall in B. apply B. eapply nth_error_In; eauto. }
  pose proof (Row _ _ Ex) as Lx.
  destruct (Qle_bool 1 _).
  - unfold hho_explore. destruct (nth_len ps (h_hawk (dr k) mod n)) as (rh & Eh). { rewrite A. apply Nat.mod_upper_bound. lia. }
    rewrite Eh. cbn [bind]. pose proof (Row _ _ Eh) as Lh. destruct (Qltb _ _).
    + match goal with |- context [coords ?f 0 ds x] => destruct (coords_ok f x Lx) as (v & -> & _) end; [|cbn [bind]; eauto].
      intros j d q Hj. destruct (nth_len rh j) as (b & ->); [lia|]. cbn [bind]. eauto.
    + match goal with |- context [coords ?f 0 ds x] => destruct (coords_ok f x Lx) as (v & -> & _) end; [|cbn [bind]; eauto].
      intros j d q Hj. destruct (nth_len rab j) as (b & ->); [lia|]. cbn [bind]. eauto.
  - destruct (Qle_bool (1#2) _).
    + unfold hho_pounce. cbv zeta. destruct (Qltb _ _).
      * match goal with |- context [coords ?f 0 ds x] => destruct (coords_ok f x Lx) as (v & -> & _) end; [|cbn [bind]; eauto].
        intros j d q Hj. destruct (nth_len rab j) as (b & ->); [lia|]. cbn [bind]. eauto.
      * match goal with |- context [coords ?f 0 ds x] => destruct (coords_ok f x Lx) as (v & -> & _) end; [|cbn [bind]; eauto].
        intros j d q Hj. destruct (nth_len rab j) as (b & ->); [lia|]. cbn [bind]. eauto.
    + destruct (nth_len fits k) as (f & ->); [lia|]. cbn [bind]. unfold hho_dive. cbv zeta.
      match goal with |- context [coords ?f 0 ds x] => destruct (coords_ok f x Lx) as (v & -> & Lv) end.
      { intros j d q Hj. destruct (nth_len rab j) as (b & ->); [lia|]. cbn [bind]. eauto. }
      cbn [bind]. destruct (settle_total expf ds W a mt (h_vdy (dr k)) v Lv DO) as (y & -> & _). cbn [bind].
      destruct (Qltb _ _); [cbn [bind]; eauto|].
      match goal with |- context [coords ?f 0 ds x] => destruct (coords_ok f x Lx) as (v' & -> & Lv') end.
      { intros j d q Hj. destruct (nth_len rab j) as (b & ->); [lia|]. cbn [bind]. eauto. }
      cbn [bind]. destruct (settle_total expf ds W a mt (h_vdz (dr k)) v' Lv' DO) as (z & -> & _). cbn [bind]. eauto.
Qed.

Lemma rows_settle_total a dr ps : length ps = n -> Forall (fun r => length r = dim) ps ->
  exists pos, rows_loop (fun i _ x => settle expf a mt (h_vd (dr i)) ds x) n ps = Some pos.
Proof.
  intros L F. unfold rows_loop.
  destruct (gens_nat_total (fun i ps => let* x := nth_error ps i in let* y := settle expf a mt (h_vd (dr i)) ds x in Some (set_nth ps i y))
    (fun _ s => length s = n /\ Forall (fun r => length r = dim) s) n 0 ps) as (s & -> & _); eauto.
  intros k s Hk (A & B). destruct (nth_len s k) as (x & Ex); [lia|]. rewrite Ex. cbn [bind].
  destruct (settle_total expf ds W a mt (h_vd (dr k)) x) as (y & -> & Fy); auto.
  { rewrite Forall_forall in B. apply B. eapply nth_error_In; eauto. }
  cbn [bind]. eexists. split; eauto. rewrite length_set_nth. split; auto. apply Forall_set_nth; auto. apply feasible_length; auto.
Qed.

Lemma hho_total ngen ke drs init : 1 <= n -> good_init ds n init -> ngen <> 0 -> (forall l, ke = Some l -> length l = ngen) ->
  exists r, hho_evolute expf m fit ds mt n ngen ke drs init = Some r.
Proof.
  intros Hn Gi Hg Hk. unfold hho_evolute.
  destruct (gens_nat_total (hho_gen expf m fit ds mt n ngen ke drs) (hho_inv init) ngen 0 (HhoSt init None [] [] [] [] [])) as (st & -> & I); [|apply hho_start; auto|].
  - intros k s Hk' I. assert (exists s', hho_gen expf m fit ds mt n ngen ke drs k s = Some s') as (s' & Es).
    { destruct I as (A & B & C & D & E & _). unfold hho_gen. cbv zeta. rewrite (map_score m fit ds W _ A).
      assert (exists e, hho_E1 ngen k ke = Some e) as (e & ->).
      { unfold hho_E1. destruct ke as [l|]; [|eauto]. rewrite (Hk l eq_refl), Nat.eqb_refl. apply nth_len. rewrite (Hk l eq_refl). lia. }
      cbn [bind].
      destruct (argmin_Some (map g (hh_pos s))) as (i & v & ->). { intros Z. apply map_eq_nil in Z. rewrite Z in B. simpl in B. lia. }
      cbn [bind].
      assert (T : tracks g (track (hh_rab s) (combine (hh_pos s) (map g (hh_pos s)))) (hh_log s ++ map fst (combine (hh_pos s) (map g (hh_pos s))))).
      { apply track_tracks; [exact C|apply (combine_score g)]. }
      rewrite combine_fst in T by (rewrite map_length; auto).
      destruct (track_Some (combine (hh_pos s) (map g (hh_pos s))) (hh_rab s)) as ([rx rf] & Er).
      { right. intros Z. apply (f_equal (@length _)) in Z. rewrite combine_length, map_length in Z. simpl in Z. lia. }
      rewrite Er in T. simpl in T. rewrite Er. cbn [bind].
      assert (Frx : feasible ds rx). { destruct T as (T & _). apply in_app_or in T. rewrite Forall_forall in A, D. destruct T; auto. }
      destruct (gens_nat_total (hho_hawk expf m fit ds mt n e (anneal1 k ngen) rx (map g (hh_pos s)) (drs k)) (loop_inv (map g (hh_pos s))) n 0 (hh_pos s, [])) as ([ps dv] & -> & Il).
      + intros j t Hj It. destruct (hawk_total e (anneal1 k ngen) rx (map g (hh_pos s)) (drs k) j t) as (t' & Et); auto; try lia.
        * rewrite map_length; auto.
        * apply feasible_length; auto.
        * exists t'. split; auto. eapply hawk_step; eauto.
      + unfold loop_inv. cbn [fst snd]. split; auto. split; [eapply Forall_impl; [|exact A]; intros; apply feasible_length; auto|]. split; [auto|]. simpl; tauto.
      + cbn [bind]. destruct Il as (L1 & L2 & _). cbn [fst] in *. destruct (rows_settle_total (anneal1 k ngen) (drs k) ps L1 L2) as (pos & ->). cbn [bind]. eauto. }
    exists s'. split; auto. eapply hho_step; eauto.
  - cbn [bind]. destruct I as (A & B & C & D & E & _). destruct (hh_rab st) as [[x f]|]; [cbn [bind]; eauto|].
    simpl in C. rewrite C in E. simpl in E. destruct n, ngen; simpl in *; lia.
Qed.
End P.
