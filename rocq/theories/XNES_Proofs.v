(** Proofs about XNES. *)
From Coq Require Import List Arith ZArith QArith Bool Lia Lqa Permutation Sorting.Sorted.
From Verif Require Import Base BaseFacts Space_Model Space_Spec Space_Facts Opt_Model Opt_Spec Opt_Facts Opt_Facts2 PSO_Proofs Pop_Model Pop_Spec Pop_Proofs Swarm_Model ACO_Model ACO_Proofs XNES_Model XNES_Spec.
Import ListNotations.
Open Scope nat_scope.

Lemma sign_nth (mm : mode) h j v : nth_error (match mm with Mmin => map Qopp h | Mmax => h end) j = Some v ->
  exists w, nth_error h j = Some w /\ v = match mm with Mmin => (- w)%Q | Mmax => w end.
Proof. destruct mm; intros H; [|eauto]. rewrite nth_error_map in H. destruct (nth_error h j); inversion H. eauto. Qed.

Section X.
Context (m : mode) (fit : list Q -> Q) (ds : list dimn) (W : wf_dims ds).
Local Notation g := (fun x => as_max m (fit x)).

Definition xtracks (b : option (list Q * Q)) (seen : list (list Q)) : Prop :=
  match b with None => seen = [] | Some (x, f) => max_of g seen x f end.
Lemma xtrack_ok l : forall b seen, xtracks b seen -> Forall (fun xf => (snd xf == g (fst xf))%Q) l ->
  xtracks (fold_left xn_track1 l b) (seen ++ map fst l).
Proof.
  induction l as [|[x f] l IH]; intros b seen T F; simpl.
  - rewrite app_nil_r. exact T.
  - inversion F as [|? ? F1 F2]; subst. simpl in F1.
    change (seen ++ x :: map fst l) with (seen ++ [x] ++ map fst l). rewrite app_assoc.
    apply (IH _ (seen ++ [x])); auto. destruct b as [[x' f']|]; simpl in *.
    + destruct T as (T1 & T2 & T3). destruct (Qltb f' f) eqn:E; qprop.
      * split; [apply in_or_app; simpl; auto|]. split; auto. intros z Hz. apply in_app_or in Hz. destruct Hz as [Hz|[<-|[]]].
        -- apply T3 in Hz. lra.
        -- lra.
      * split; [apply in_or_app; auto|]. split; auto. intros z Hz. apply in_app_or in Hz. destruct Hz as [Hz|[<-|[]]]; auto. lra.
    + subst seen. split; [simpl; auto|]. split; auto. intros z [<-|[]]. lra.
Qed.

Lemma mean_le (l : list Q) c : l <> [] -> Forall (fun x => (x <= c)%Q) l -> (qsum l / qnat (length l) <= c)%Q.
Proof.
  intros H F. assert (P : (0 < qnat (length l))%Q). { unfold qnat, Qlt. simpl. destruct l; [congruence|simpl; lia]. }
  apply Qle_shift_div_r; auto. clear H P. induction F as [|x l Hx F IH]; simpl length.
  - change (qnat 0) with 0%Q. rewrite Qmult_0_r. simpl. lra.
  - unfold qnat in *. rewrite Nat2Z.inj_succ. unfold Z.succ. rewrite inject_Z_plus. change (inject_Z 1) with 1%Q. simpl qsum. lra.
Qed.

(** What holds of an object whose evaluations so far are its log; [old] is the length of the
    history before the current call. *)
Definition xinv (n : nat) (st0 : xn_state) (k : nat) (st : xn_state) : Prop :=
  xtracks (xn_best st) (xn_log st) /\ Forall (inside (dim_bounds ds)) (xn_log st) /\
  (exists new, xn_log st = xn_log st0 ++ new /\ length new = n * k) /\
  (exists h, xn_hist st = xn_hist st0 ++ h /\ length h = k /\
     (forall j v, nth_error h j = Some v -> exists x, max_of g (firstn (length (xn_log st0) + n * (j + 1)) (xn_log st)) x v) /\
     (forall v, nth_error h (k - 1) = Some v -> exists x, xn_best st = Some (x, v))) /\
  xn_counter st = xn_counter st0 + k /\ xn_mu_set st = xn_mu_set st0 /\
  (k <> 0 -> exists early pos, xn_log st = early ++ pos /\ length pos = n /\ Permutation pos (map fst (xn_last st)) /\
     Forall (fun xf => (snd xf == g (fst xf))%Q) (xn_last st) /\ StronglySorted (fun a b => (snd a <= snd b)%Q) (xn_last st)).

Lemma xstep n st0 k st raw st' : 1 <= n -> length raw = n -> Forall (fun r => length r = length ds) raw ->
  xinv n st0 k st -> xn_gen m fit ds raw st = Some st' -> xinv n st0 (S k) st'.
Proof.
  intros n1 L F (A & B & C & D & E1 & E2 & _) H. unfold xn_gen in H. cbv zeta in H.
  change (map (fun x => as_max m (fit x)) (map (clip_vec (bnds ds)) raw)) with (map g (map (clip_vec (bnds ds)) raw)) in H.
  set (z := map (clip_vec (bnds ds)) raw) in *.
  assert (Lz : length z = n) by (unfold z; rewrite map_length; auto).
  assert (Iz : Forall (inside (dim_bounds ds)) z). { unfold z. rewrite Forall_map. eapply Forall_impl; [|exact F]. intros r Hr. apply clip_inside; auto. }
  set (pop := sort_asc snd (combine z (map g z))) in *.
  assert (Pp : Permutation pop (combine z (map g z))) by apply sort_asc_perm.
  assert (Pz : Permutation (map fst pop) z). { rewrite <- (combine_fst z (map g z)) by (rewrite map_length; auto). apply Permutation_map. exact Pp. }
  assert (Fp : Forall (fun xf => (snd xf == g (fst xf))%Q) pop).
  { eapply Permutation_Forall; [apply Permutation_sym; exact Pp|]. exact (combine_score g z). }
  pose proof (xtrack_ok pop _ _ A Fp) as T.
  apply bind_Some in H. destruct H as ([bx fb] & Eb & H). rewrite Eb in T. simpl in T.
  assert (T' : max_of g (xn_log st ++ z) bx fb).
  { eapply max_of_iff; [|exact T]. intros y. rewrite !in_app_iff. split; intros [Hy|Hy]; auto; right; [eapply Permutation_in; eauto|eapply Permutation_in; [apply Permutation_sym|]; eauto]. }
  assert (U : Qltb fb (qsum (map g z) / qnat (length (map g z)) - (1 # 100000000)) = false).
  { apply Qltb_false. assert (qsum (map g z) / qnat (length (map g z)) <= fb)%Q.
    { apply mean_le; [intros E; apply map_eq_nil in E; rewrite E in Lz; simpl in Lz; lia|]. rewrite Forall_map. apply Forall_forall. intros y Hy. apply T'. apply in_or_app; auto. }
    lra. }
  rewrite U in H. inversion H; subst st'; clear H. unfold xinv. cbn [xn_best xn_hist xn_counter xn_mu_set xn_last xn_log].
  destruct C as (new & C1 & C2). destruct D as (h & D1 & D2 & D3 & D4).
  split; [rewrite Eb; exact T'|]. split; [apply Forall_app; auto|].
  split. { exists (new ++ z). rewrite C1, <- app_assoc. split; auto. rewrite app_length, C2, Lz. rewrite Nat.mul_succ_r. lia. }
  split. { exists (h ++ [fb]). rewrite D1, <- app_assoc. split; auto. split; [rewrite app_length; simpl; lia|]. split.
    - intros j v Hj. destruct (Nat.lt_ge_cases j (length h)) as [Lj|Lj].
      + rewrite nth_error_app1 in Hj by lia. rewrite firstn_app_le; eauto. rewrite C1, app_length, C2. assert (n * (j + 1) <= n * k) by (apply Nat.mul_le_mono_l; lia). lia.
      + assert (j = length h). { assert (j < length (h ++ [fb])) by (apply nth_error_Some; congruence). rewrite app_length in *; simpl in *; lia. }
        subst j. rewrite nth_error_app2, Nat.sub_diag in Hj by lia. inversion Hj; subst v. exists bx. rewrite firstn_all2; auto.
        rewrite app_length, C1, app_length, C2, Lz, D2. lia.
    - intros v Hv. simpl in Hv. rewrite Nat.sub_0_r in Hv. rewrite nth_error_app2, D2, Nat.sub_diag in Hv by lia. inversion Hv; subst. exists bx. rewrite Eb. reflexivity. }
  split; [lia|]. split; [auto|]. intros _. exists (xn_log st), z. split; auto. split; auto. split; [apply Permutation_sym; auto|]. split; auto. apply sort_asc_sorted.
Qed.

Lemma xgens n st0 : forall raws k st st', 1 <= n -> Forall (fun raw => length raw = n /\ Forall (fun r => length r = length ds) raw) raws ->
  xinv n st0 k st -> fold_left (fun s raw => let* s' := s in xn_gen m fit ds raw s') raws (Some st) = Some st' -> xinv n st0 (k + length raws) st'.
Proof.
  induction raws as [|raw raws IH]; intros k st st' n1 F I H; simpl in H.
  - inversion H; subst. simpl. rewrite Nat.add_0_r. auto.
  - inversion F as [|? ? (F1 & F2) F']; subst. cbn [bind] in H. destruct (xn_gen m fit ds raw st) as [s1|] eqn:E.
    + simpl. rewrite <- Nat.add_succ_comm. eapply IH; eauto. eapply xstep; eauto.
    + exfalso. clear - H. induction raws; simpl in H; [discriminate|auto].
Qed.

(** Sign of a reported value. *)
Lemma max_of_neg_best seen x v : max_of g seen x v -> best_of m fit seen x (match m with Mmin => (- v)%Q | Mmax => v end).
Proof. intros H. pose proof (max_of_best m fit seen x v H). destruct m; simpl in *; auto. Qed.

Lemma xn_call n st raws st' r : 1 <= n -> Forall (fun raw => length raw = n /\ Forall (fun r => length r = length ds) raw) raws ->
  xtracks (xn_best st) (xn_log st) -> Forall (inside (dim_bounds ds)) (xn_log st) ->
  xn_evolute m fit ds st raws = Some (st', r) ->
  best_of m fit (xn_log st') (xr_x r) (xr_y r) /\ Forall (inside (dim_bounds ds)) (xn_log st') /\
  (exists new, xn_log st' = xn_log st ++ new /\ length new = n * length raws) /\
  (exists h, xr_hist r = (match m with Mmin => map Qopp (xn_hist st) | Mmax => xn_hist st end) ++ h /\ length h = length raws /\
    (forall j v, nth_error h j = Some v -> exists x, best_of m fit (firstn (length (xn_log st) + n * (j + 1)) (xn_log st')) x v) /\
    never_worse m h /\ nth_error h (length raws - 1) = Some (xr_y r)) /\
  (exists early pos, xn_log st' = early ++ pos /\ length pos = n /\ Permutation pos (xr_pop r)) /\ Forall2 (fun x v => (v == fit x)%Q) (xr_pop r) (xr_pf r) /\
  xn_counter st' = xn_counter st + length raws /\ xn_mu_set st' = xn_mu_set st /\ xtracks (xn_best st') (xn_log st').
Proof.
  intros n1 F T I H. unfold xn_evolute in H. destruct (length raws =? 0) eqn:E0; [discriminate|]. apply Nat.eqb_neq in E0.
  apply bind_Some in H. destruct H as (s1 & Eg & H). apply bind_Some in H. destruct H as ([x f] & Eb & H). inversion H; subst st' r; clear H.
  apply (xgens n st raws 0) in Eg; auto.
  2:{ split; auto. split; auto. split; [exists []; rewrite app_nil_r; split; auto; simpl; lia|]. split.
      { exists []. rewrite app_nil_r. split; auto. split; auto. split; [intros [|j] v; discriminate|discriminate]. }
      split; [lia|]. split; auto. lia. }
  simpl in Eg. destruct Eg as (A & B & C & (h & D1 & D2 & D3 & D4) & E1 & E2 & E3). specialize (E3 E0).
  cbn [xn_best xn_hist xn_counter xn_mu_set xn_last xn_log xr_x xr_y xr_hist xr_pop xr_pf].
  assert (Ab : max_of g (xn_log s1) x f) by (rewrite Eb in A; exact A).
  split; [apply max_of_best; exact Ab|]. split; auto. split; auto.
  set (h' := match m with Mmin => map Qopp h | Mmax => h end).
  assert (X : forall j v, nth_error h' j = Some v -> exists x, best_of m fit (firstn (length (xn_log st) + n * (j + 1)) (xn_log s1)) x v).
  { intros j v Hj. unfold h' in Hj. apply sign_nth in Hj. destruct Hj as (w & Ew & ->).
    destruct (D3 _ _ Ew) as (y & Y). exists y. apply max_of_neg_best in Y. exact Y. }
  split. { exists h'. split; [unfold h'; rewrite D1; destruct m; auto; apply map_app|]. split; [unfold h'; destruct m; try rewrite map_length; auto|]. split; auto. split.
    - intros i j a b Hij Ha Hb. destruct (X _ _ Ha) as (y & Y1 & Y2 & Y3). destruct (X _ _ Hb) as (w & W1 & W2 & W3).
      assert (In y (firstn (length (xn_log st) + n * (j + 1)) (xn_log s1))). { eapply firstn_mono; [|exact Y1]. assert (n * (i + 1) <= n * (j + 1)) by (apply Nat.mul_le_mono_l; lia). lia. }
      apply W3 in H. destruct m; simpl in *; lra.
    - destruct (nth_error h (length raws - 1)) as [v|] eqn:Ev; [|apply nth_error_None in Ev; lia]. destruct (D4 _ eq_refl) as (x' & Ex'). rewrite Eb in Ex'. inversion Ex'; subst x' v.
      unfold h'. destruct m; simpl; auto. rewrite nth_error_map, Ev. reflexivity. }
  destruct E3 as (early & pos & P1 & P2 & P3 & P4 & P5). split; [exists early, pos; auto|].
  split. { clear - P4. induction P4 as [|[y v] l Hy P IH]; simpl; constructor; auto. simpl in *. rewrite <- (as_max_invol m (fit y)). destruct m; simpl in *; simpl in *; lra. }
  split; [lia|]. split; auto.
Qed.

Lemma xn_calls_ok n : 1 <= n -> forall calls st st', good_calls ds n calls -> xtracks (xn_best st) (xn_log st) -> Forall (inside (dim_bounds ds)) (xn_log st) ->
  xn_calls m fit ds st calls = Some st' -> xtracks (xn_best st') (xn_log st') /\ Forall (inside (dim_bounds ds)) (xn_log st') /\
  xn_counter st' = xn_counter st + length (concat calls) /\ xn_mu_set st' = xn_mu_set st.
Proof.
  intros n1. induction calls as [|c calls IH]; intros st st' G T I H; simpl in H.
  - inversion H; subst. simpl. auto.
  - inversion G as [|? ? G1 G2]; subst. apply bind_Some in H. destruct H as ([s1 r] & E & H).
    destruct (xn_call n st c s1 r n1 G1 T I E) as (_ & A & _ & _ & _ & _ & B & C & D).
    destruct (IH _ _ G2 D A H) as (X & Y & Z & U). split; auto. split; auto. split; [|congruence].
    simpl. rewrite app_length. lia.
Qed.
End X.

Lemma xnes_best_ok m fit ds : wf_dims ds -> forall n calls raws st st' r, 1 <= n -> good_calls ds n (calls ++ [raws]) ->
  xn_calls m fit ds xn_new calls = Some st -> xn_evolute m fit ds st raws = Some (st', r) ->
  best_of m fit (xn_log st') (xr_x r) (xr_y r) /\ Forall (inside (dim_bounds ds)) (xn_log st') /\
  (exists new, xn_log st' = xn_log st ++ new /\ length new = n * length raws) /\
  (exists h, xr_hist r = (match m with Mmin => map Qopp (xn_hist st) | Mmax => xn_hist st end) ++ h /\ length h = length raws /\
    (forall j v, nth_error h j = Some v -> exists x, best_of m fit (firstn (length (xn_log st) + n * (j + 1)) (xn_log st')) x v) /\
    never_worse m h /\ nth_error h (length raws - 1) = Some (xr_y r)) /\
  (exists early pos, xn_log st' = early ++ pos /\ length pos = n /\ Permutation pos (xr_pop r)) /\ Forall2 (fun x v => (v == fit x)%Q) (xr_pop r) (xr_pf r) /\
  xn_counter st' = length (concat (calls ++ [raws])) /\ xn_mu_set st' = false.
Proof.
  intros W n calls raws st st' r n1 G Hc He. apply Forall_app in G. destruct G as (G1 & G2). inversion G2 as [|? ? G3 _]; subst.
  assert (T0 : xtracks m fit (xn_best xn_new) (xn_log xn_new)) by reflexivity.
  assert (I0 : Forall (inside (dim_bounds ds)) (xn_log xn_new)) by constructor.
  destruct (xn_calls_ok m fit ds W n n1 calls xn_new st G1 T0 I0 Hc) as (A & B & C & D).
  destruct (xn_call m fit ds W n st raws st' r n1 G3 A B He) as (X1 & X2 & X3 & X4 & X5 & X6 & X7 & X8 & _).
  repeat (split; [assumption|]). rewrite concat_app, app_length. simpl. rewrite app_nil_r. rewrite X7, X8, C, D. split; [simpl; lia|reflexivity].
Qed.

(** Calls never raise. *)
Lemma xn_total m fit ds n st raws : 1 <= n -> Forall (fun raw : list (list Q) => length raw = n) raws -> raws <> [] ->
  exists st' r, xn_evolute m fit ds st raws = Some (st', r).
Proof.
  intros n1 F Hn. unfold xn_evolute. destruct (length raws =? 0) eqn:E0; [apply Nat.eqb_eq in E0; destruct raws; simpl in *; congruence|].
  assert (X : forall l b, l <> [] \/ b <> None -> exists p, fold_left xn_track1 l b = Some p).
  { induction l as [|a l IH]; intros b H; simpl.
    - destruct b; eauto. destruct H; congruence.
    - apply IH. right. destruct b as [[y v]|]; simpl; [destruct (Qltb _ _)|]; discriminate. }
  assert (G : forall raw s, length raw = n -> exists s', xn_gen m fit ds raw s = Some s' /\ xn_best s' <> None).
  { intros raw s L. unfold xn_gen. cbv zeta. match goal with |- context [fold_left xn_track1 ?l ?b] => destruct (X l b) as ([x f] & E) end.
    - left. intros E. apply (f_equal (@length _)) in E. rewrite sort_asc_length, combine_length, !map_length in E. simpl in E. lia.
    - rewrite E. cbn [bind]. eexists. split; [reflexivity|]. simpl. discriminate. }
  assert (T : forall raws s, Forall (fun raw : list (list Q) => length raw = n) raws -> (raws <> [] \/ xn_best s <> None) -> exists s', fold_left (fun s raw => let* s' := s in xn_gen m fit ds raw s') raws (Some s) = Some s' /\ xn_best s' <> None).
  { induction raws0 as [|raw rs IH]; intros s Fr H; simpl.
    - destruct H; [congruence|]. eauto.
    - inversion Fr; subst. destruct (G raw s) as (s1 & E & Hb); auto. rewrite E. apply IH; auto. }
  destruct (T raws st F) as (s' & E & Hb); auto. rewrite E. cbn [bind]. destruct (xn_best s') as [[x f]|]; [|congruence]. cbn [bind]. eauto.
Qed.

(** The utilities sum to zero. *)
Lemma qsum_map_sub l s c : ~ (s == 0)%Q -> (qsum (map (fun u => u / s - c) l) == qsum l / s - qnat (length l) * c)%Q.
Proof.
  intros H. induction l as [|a l IH]; simpl qsum.
  - simpl length. unfold qnat. change (inject_Z (Z.of_nat 0)) with 0%Q. field. auto.
  - rewrite IH. simpl length. unfold qnat. rewrite Nat2Z.inj_succ. unfold Z.succ. rewrite inject_Z_plus. change (inject_Z 1) with 1%Q. field. auto.
Qed.
Lemma qsum_rev l : (qsum (rev l) == qsum l)%Q.
Proof. induction l; simpl; [reflexivity|]. rewrite qsum_app, IHl. simpl. ring. Qed.
Lemma qnat_pos k : 1 <= k -> (0 < qnat k)%Q.
Proof. intros H. unfold qnat, Qlt. simpl. lia. Qed.
Lemma qsum_nonneg l : Forall (fun x => (0 <= x)%Q) l -> (0 <= qsum l)%Q.
Proof. intros F. induction F; simpl; [lra|]. unfold qsum in *. lra. Qed.
Lemma raw_util_nonneg logf npop k : (0 <= xn_raw_utility logf npop k)%Q.
Proof. unfold xn_raw_utility, qmax2. destruct (Qle_bool _ 0) eqn:E; qprop; lra. Qed.

Lemma utilities_sum logf npop : (forall x y, (0 < x)%Q -> (x < y)%Q -> (logf x < logf y)%Q) -> 1 <= npop ->
  (qsum (xn_utilities logf npop) == 0)%Q /\ length (xn_utilities logf npop) = npop /\
  StronglySorted Qle (xn_utilities logf npop).
Proof.
  intros Hl Hn. unfold xn_utilities. cbv zeta. set (raw := map (xn_raw_utility logf npop) (seq 1 npop)).
  assert (Lr : length raw = npop) by (unfold raw; rewrite map_length, seq_length; auto).
  assert (P : (0 < qsum raw)%Q).
  { unfold raw. destruct npop as [|k]; [lia|]. simpl seq. simpl map. simpl qsum.
    assert (0 < xn_raw_utility logf (S k) 1)%Q.
    { unfold xn_raw_utility, qmax2. assert (logf (qnat 1) < logf (1 + (1#2) * qnat (S k)))%Q.
      { pose proof (qnat_pos (S k) ltac:(lia)). apply Hl; [apply qnat_pos; lia|]. unfold qnat at 1. simpl inject_Z. change (inject_Z 1) with 1%Q. lra. }
      destruct (Qle_bool _ 0) eqn:E; qprop; lra. }
    assert (0 <= qsum (map (xn_raw_utility logf (S k)) (seq 2 k)))%Q.
    { apply qsum_nonneg. rewrite Forall_map. apply Forall_forall. intros. apply raw_util_nonneg. }
    unfold qsum in *. lra. }
  split. { rewrite qsum_rev, qsum_map_sub by lra. rewrite Lr. pose proof (qnat_pos npop Hn). field. split; lra. }
  split; [rewrite rev_length, map_length; auto|].
  assert (D : StronglySorted (fun a b => (b <= a)%Q) raw).
  { unfold raw. assert (forall n a, 1 <= a -> StronglySorted (fun x y => (y <= x)%Q) (map (xn_raw_utility logf npop) (seq a n))).
    { induction n as [|n IH]; intros a Ha; simpl; constructor; [apply IH; lia|].
      rewrite Forall_map. apply Forall_forall. intros b Hb. apply in_seq in Hb. unfold xn_raw_utility, qmax2.
      assert (logf (qnat a) < logf (qnat b))%Q. { apply Hl; [apply qnat_pos; lia|]. unfold qnat. rewrite <- Zlt_Qlt. lia. }
      destruct (Qle_bool _ 0) eqn:E1; destruct (Qle_bool (logf (1 + (1 # 2) * qnat npop) - logf (qnat a))%Q 0) eqn:E2; qprop; lra. }
    apply H. lia. }
  clear Lr. revert P D. generalize (qsum raw). generalize raw. clear. intros raw s P D. induction D as [|a l D IH F]; simpl; [constructor|].
  assert (R : forall (l : list Q) x, StronglySorted Qle l -> Forall (fun y => (y <= x)%Q) l -> StronglySorted Qle (l ++ [x])).
  { induction l0 as [|b l0 IH0]; intros x HS Hx; simpl; [repeat constructor|]. inversion HS; subst. inversion Hx; subst. constructor; auto. apply Forall_app. split; auto. }
  apply R; auto. apply Forall_rev. rewrite Forall_map. eapply Forall_impl; [|exact F]. intros b Hb. cbv beta in *.
  assert (b / s <= a / s)%Q. { apply Qle_shift_div_l; auto. setoid_replace (b / s * s)%Q with b by (field; lra). auto. }
  lra.
Qed.
