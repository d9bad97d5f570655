(** Proofs about cuckoo search. *)
From Coq Require Import List Arith ZArith QArith Bool Lia Lqa.
From Verif Require Import Base BaseFacts Space_Model Space_Spec Space_Facts Opt_Model Opt_Spec Opt_Facts Opt_Facts2 Pop_Model Pop_Spec Pop_Proofs Swarm_Model CS_Model CS_Spec.
Import ListNotations.
Open Scope nat_scope.

Section D.
Context (expf : Q -> Q) (ds : list dimn) (W : wf_dims ds).

Lemma ensure_from_ints alpha mt rand pick : forall dd pre vec w, wf_dims dd -> length vec = length dd ->
  ensure_discrete_from expf alpha mt rand pick (length pre) dd (pre ++ vec) = Some w ->
  exists v', w = pre ++ v' /\ ints_ok dd v'.
Proof.
  induction dd as [|d dd IH]; intros pre vec w Wd L H.
  - destruct vec; [|discriminate]. simpl in H. inversion H. exists []. split; auto. constructor.
  - destruct vec as [|x v]; [discriminate|]. inversion Wd as [|? ? [W1 W2] Wd']; subst. cbn [ensure_discrete_from] in H.
    destruct (d_int d) eqn:Ei.
    + rewrite nth_error_app2, Nat.sub_diag in H by lia. cbn [nth_error] in H.
      match type of H with match ?e with _ => _ end = _ => destruct e as [z|] eqn:Ez end; [|discriminate].
      rewrite set_nth_split in H.
      replace (pre ++ inject_Z z :: v) with ((pre ++ [inject_Z z]) ++ v) in H by (rewrite <- app_assoc; reflexivity).
      replace (S (length pre)) with (length (pre ++ [inject_Z z])) in H by (rewrite app_length; simpl; lia).
      apply IH in H; auto. destruct H as (v' & -> & F). exists (inject_Z z :: v'). rewrite <- app_assoc. split; auto.
      constructor; auto. intros _. apply mutate_range in Ez; auto. destruct (W2 eq_refl) as [I1 I2].
      apply is_int_trunc in I1. apply is_int_trunc in I2.
      split; [exists z; reflexivity|]. split; [rewrite <- I1|rewrite <- I2]; rewrite <- Zle_Qle; lia.
    + replace (pre ++ x :: v) with ((pre ++ [x]) ++ v) in H by (rewrite <- app_assoc; reflexivity).
      replace (S (length pre)) with (length (pre ++ [x])) in H by (rewrite app_length; simpl; lia).
      apply IH in H; auto. destruct H as (v' & -> & F). exists (x :: v'). rewrite <- app_assoc. split; auto.
      constructor; auto. congruence.
Qed.
Lemma ensure_ints alpha mt rand pick v w : length v = length ds -> ensure_discrete expf alpha mt rand pick ds v = Some w -> ints_ok ds w.
Proof. intros L H. destruct (ensure_from_ints alpha mt rand pick ds [] v w W L H) as (v' & -> & F). exact F. Qed.

Lemma ensure_nearest_total alpha rand pick : forall dd pre vec, length vec = length dd ->
  exists w, ensure_discrete_from expf alpha NearestInt rand pick (length pre) dd (pre ++ vec) = Some w.
Proof.
  induction dd as [|d dd IH]; intros pre vec L.
  - eexists. reflexivity.
  - destruct vec as [|x v]; [discriminate|]. cbn [ensure_discrete_from]. destruct (d_int d).
    + rewrite nth_error_app2, Nat.sub_diag by lia. cbn [nth_error].
      match goal with |- exists w, match ?e with _ => _ end = _ => destruct e as [z|] eqn:Ez end; [|discriminate].
      rewrite set_nth_split. destruct (IH (pre ++ [inject_Z z]) v) as [w Hw]; [simpl in L; lia|].
      exists w. rewrite app_length in Hw. simpl in Hw. rewrite Nat.add_1_r, <- app_assoc in Hw. exact Hw.
    + destruct (IH (pre ++ [x]) v) as [w Hw]; [simpl in L; lia|].
      exists w. rewrite app_length in Hw. simpl in Hw. rewrite Nat.add_1_r, <- app_assoc in Hw. exact Hw.
Qed.

Lemma ints_length x : ints_ok ds x -> length x = length ds.
Proof. intros H. symmetry. eapply Forall2_length; eauto. Qed.
Lemma feasible_ints x : feasible ds x -> ints_ok ds x.
Proof. intros H. induction H as [|d a dd v (A & B & C) H IH]; constructor; auto. apply IH. inversion W; auto. Qed.
Lemma arg_feasible x : ints_ok ds x -> feasible ds (pt_arg ds x).
Proof.
  intros H. apply clip_feasible; auto. clear W. induction H as [|d a dd v A H IH]; constructor; auto. intros E. apply A; auto.
Qed.
Lemma arg_nearest x : length x = length ds -> pt_arg ds x = nearest_point ds x.
Proof.
  unfold pt_arg, nearest_point, bnds. revert x. induction W as [|d dd [Wd ?] W' IH]; intros x L; [reflexivity|].
  destruct x as [|a x]; [discriminate|]. cbn [map combine]. fold (bnds dd).
  change (map (fun d => (d_lo d, d_hi d)) dd) with (dim_bounds dd) in *. rewrite clip_vec_cons by auto. simpl. f_equal. apply IH; auto.
Qed.
End D.

Lemma greedy_spec old : forall new, length new = length old ->
  length (cs_greedy old new) = length old /\
  Forall2 (fun o w => (snd w <= snd o)%Q) old (cs_greedy old new) /\
  Forall2 (fun o w => (snd w <= snd o)%Q) new (cs_greedy old new) /\
  Forall (fun w => In w old \/ In w new) (cs_greedy old new).
Proof.
  unfold cs_greedy. induction old as [|o old IH]; intros [|w new] L; try discriminate; simpl.
  - repeat split; constructor.
  - destruct (IH new) as (A & B & C & D); [simpl in L; lia|]. split; [congruence|].
    assert (D' : Forall (fun w0 => (o = w0 \/ In w0 old) \/ w = w0 \/ In w0 new) (map2 (fun o0 w0 => if Qle_bool (snd w0) (snd o0) then w0 else o0) old new)).
    { eapply Forall_impl; [|exact D]. intros a [?|?]; auto. }
    destruct (Qle_bool (snd w) (snd o)) eqn:E; qprop; (split; [|split]); constructor; auto; lra.
Qed.

Lemma Forall2_In_l {A B} (R : A -> B -> Prop) l r a : Forall2 R l r -> In a l -> exists b, In b r /\ R a b.
Proof. intros F. induction F; simpl; intros []; subst; eauto. destruct IHF as (b & ? & ?); eauto. Qed.

(** Global history of a run that evaluates [c k] points before entry [k]. *)
Lemma by_count_snoc m fit (c : nat -> nat) (log : list (list Q)) h blk (x : list Q) y :
  (forall k v, nth_error h k = Some v -> exists z, best_of m fit (firstn (c k) log) z v) ->
  (forall k, k < length h -> c k <= length log) -> c (length h) = length (log ++ blk) ->
  best_of m fit (log ++ blk) x y ->
  forall k v, nth_error (h ++ [y]) k = Some v -> exists z, best_of m fit (firstn (c k) (log ++ blk)) z v.
Proof.
  intros G L1 L2 B k v Hk. destruct (Nat.lt_ge_cases k (length h)) as [Lk|Lk].
  - rewrite nth_error_app1 in Hk by lia. rewrite firstn_app_le; eauto.
  - assert (k = length h). { assert (k < length (h ++ [y])) by (apply nth_error_Some; congruence). rewrite app_length in *; simpl in *; lia. }
    subst k. rewrite nth_error_app2, Nat.sub_diag in Hk by lia. inversion Hk; subst v.
    exists x. rewrite firstn_all2; auto. lia.
Qed.
Lemma by_count_mono m fit (c : nat -> nat) (log : list (list Q)) h : (forall i j, i <= j -> c i <= c j) ->
  (forall k v, nth_error h k = Some v -> exists z : list Q, best_of m fit (firstn (c k) log) z v) -> never_worse m h.
Proof.
  intros Hc G i j a b Hij Ha Hb. destruct (G _ _ Ha) as (x & X1 & X2 & X3). destruct (G _ _ Hb) as (y & Y1 & Y2 & Y3).
  assert (In x (firstn (c j) log)) by (eapply firstn_mono; [|exact X1]; auto).
  apply Y3 in H. destruct m; simpl in *; lra.
Qed.

Section C.
Context (expf : Q -> Q) (m : mode) (fit : list Q -> Q) (ds : list dimn) (mt : imethod) (pa : Q) (W : wf_dims ds).
Context (n : nat) (n1 : 1 <= n).

Let G := fun z => as_min m (fit z).
Let member (log : list (list Q)) (xf : list Q * Q) : Prop :=
  ints_ok ds (fst xf) /\ snd xf = G (pt_arg ds (fst xf)) /\ In (pt_arg ds (fst xf)) log.

Definition cs_inv (init : list (list Q)) (k : nat) (st : cs_state) : Prop :=
  length (cs_pop st) = n /\ Forall (member (cs_log st)) (cs_pop st) /\
  member (cs_log st) (cs_best st) /\ (forall z, In z (cs_log st) -> (snd (cs_best st) <= G z)%Q) /\
  (forall z, In z (cs_log st) -> exists xf, In xf (cs_pop st) /\ (snd xf <= G z)%Q) /\
  Forall (feasible ds) (cs_log st) /\ length (cs_log st) = n * (2 * k + 1) /\ (exists rest, cs_log st = init ++ rest) /\
  length (cs_global st) = k /\
  (forall j v, nth_error (cs_global st) j = Some v -> exists z, best_of m fit (firstn (n * (2 * j + 3)) (cs_log st)) z v) /\
  (forall v, nth_error (cs_global st) (k - 1) = Some v -> v = as_min m (snd (cs_best st))) /\
  Forall2 Qeq (cs_local st) (cs_global st).

Lemma fly_ints alpha best dr j x y : cs_fly expf alpha mt ds best dr j x = Some y -> ints_ok ds y.
Proof.
  unfold cs_fly. cbv zeta. intros H. apply bind_Some in H. destruct H as (s & Es & H).
  eapply ensure_ints; [exact W| |exact H]. eapply coords_length; eauto.
Qed.
Lemma abandon_ints alpha nests d i x y : cs_abandon expf alpha pa mt ds nests d i x = Some y -> ints_ok ds y.
Proof.
  unfold cs_abandon. intros H. apply bind_Some in H. destruct H as (a & Ea & H). apply bind_Some in H. destruct H as (b & Eb & H).
  apply bind_Some in H. destruct H as (s & Es & H). unfold settle in H. change (bnds ds) with (dim_bounds ds) in H.
  eapply ensure_ints; [exact W| |exact H]. apply clip_length; auto. eapply coords_length; eauto.
Qed.

Lemma scored_member log pos : Forall (ints_ok ds) pos -> incl (map (pt_arg ds) pos) log -> Forall (member log) (scored m fit ds pos).
Proof.
  unfold scored. intros F I. induction F as [|x pos Hx F IH]; simpl; constructor.
  - split; auto. split; [reflexivity|]. apply I. simpl; auto.
  - apply IH. intros z Hz. apply I. simpl; auto.
Qed.
Lemma scored_length pos : length (scored m fit ds pos) = length pos.
Proof. unfold scored. rewrite combine_length, map_length. lia. Qed.
Lemma scored_In x pos : In x pos -> In (x, G (pt_arg ds x)) (scored m fit ds pos).
Proof. unfold scored. induction pos; simpl; intros []; subst; auto. Qed.
Lemma member_mono log log' xf : incl log log' -> member log xf -> member log' xf.
Proof. intros I (A & B & C). repeat split; auto. Qed.

Lemma cs_greedy_inv log pop nests : length pop = n -> Forall (member log) pop -> length nests = n -> Forall (ints_ok ds) nests ->
  (forall z, In z log -> exists xf, In xf pop /\ (snd xf <= G z)%Q) ->
  let log' := log ++ map (pt_arg ds) nests in let pop' := cs_greedy pop (scored m fit ds nests) in
  length pop' = n /\ Forall (member log') pop' /\ (forall z, In z log' -> exists xf, In xf pop' /\ (snd xf <= G z)%Q) /\
  Forall2 (fun o w => (snd w <= snd o)%Q) pop pop'.
Proof.
  intros L F Ln Fn E log' pop'. destruct (greedy_spec pop (scored m fit ds nests)) as (A & B & C & D).
  { rewrite scored_length. lia. }
  fold pop' in A, B, C, D. split; [lia|]. split; [|split; auto].
  - apply Forall_forall. intros w Hw. rewrite Forall_forall in D, F. destruct (D _ Hw) as [H|H].
    + eapply member_mono; [|apply F; auto]. intros z Hz. apply in_or_app. auto.
    + pose proof (scored_member log' nests Fn) as X. rewrite Forall_forall in X. apply X; auto.
      intros z Hz. apply in_or_app. auto.
  - intros z Hz. apply in_app_or in Hz. destruct Hz as [Hz|Hz].
    + destruct (E z Hz) as (xf & H1 & H2). destruct (Forall2_In_l _ _ _ _ B H1) as (w & H3 & H4). exists w. split; auto. lra.
    + apply in_map_iff in Hz. destruct Hz as (x & <- & Hx). apply scored_In in Hx.
      destruct (Forall2_In_l _ _ _ _ C Hx) as (w & H3 & H4). exists w. split; auto.
Qed.

Lemma nests_ints (f : nat -> list Q -> option (list Q)) l l' : (forall i x y, f i x = Some y -> ints_ok ds y) -> traverse f 0 l = Some l' ->
  Forall (ints_ok ds) l' /\ length l' = length l.
Proof.
  intros Hf H. split.
  - apply (traverse_Forall f (fun _ => True) (ints_ok ds)) in H; auto.
    + intros. eauto.
    + apply Forall_forall. auto.
  - clear Hf. revert l' H. generalize 0. induction l as [|a l IH]; intros i l' H; simpl in H; [inversion H; auto|].
    apply bind_Some in H. destruct H as (b & Eb & H). apply bind_Some in H. destruct H as (r & Er & H). inversion H; subst. simpl. f_equal. eauto.
Qed.

Lemma track_le l : forall b x f, track b l = Some (x, f) -> (forall y g, b = Some (y, g) -> (f <= g)%Q) /\ (forall w, In w l -> (f <= snd w)%Q).
Proof.
  induction l as [|a l IH]; intros b x f H; simpl in H.
  - unfold track in H. simpl in H. subst b. split; [|simpl; tauto]. intros y g E. inversion E; subst. lra.
  - destruct (IH _ _ _ H) as (A & B). destruct b as [[x' f']|]; simpl in *.
    + destruct (Qltb (snd a) f') eqn:E; qprop.
      * destruct a as [ax af]. specialize (A _ _ eq_refl). simpl in E. split; [intros y g Ey; inversion Ey; subst; lra|].
        intros w [<-|Hw]; auto.
      * specialize (A _ _ eq_refl). split; [intros y g Ey; inversion Ey; subst; auto|]. intros w [<-|Hw]; auto. lra.
    + destruct a as [ax af]. specialize (A _ _ eq_refl). split; [discriminate|]. intros w [<-|Hw]; auto.
Qed.

Lemma cs_step ngen fly drop init k st st' : cs_inv init k st -> cs_gen expf m fit ds mt pa ngen fly drop (1 + k) st = Some st' ->
  cs_inv init (S k) st' /\ Forall2 (fun o w => (snd w <= snd o)%Q) (cs_pop st) (cs_pop st').
Proof.
  intros (A & B & C & D & E & F & H1 & H2 & H3 & H4 & H5 & H6) H. unfold cs_gen in H. cbv zeta in H.
  apply bind_Some in H. destruct H as (nests & En & H).
  apply nests_ints in En; [|intros; eapply fly_ints; eauto]. destruct En as (N1 & N2). rewrite map_length in N2.
  apply bind_Some in H. destruct H as (nests2 & En2 & H).
  apply nests_ints in En2; [|intros; eapply abandon_ints; eauto]. destruct En2 as (M1 & M2).
  destruct (cs_greedy_inv _ _ nests A B ltac:(lia) N1 E) as (P1 & P2 & P3 & P4).
  destruct (cs_greedy_inv _ _ nests2 P1 P2 ltac:(lia) M1 P3) as (R1 & R2 & R3 & R4).
  set (pop1 := cs_greedy (cs_pop st) (scored m fit ds nests)) in *.
  set (pop2 := cs_greedy pop1 (scored m fit ds nests2)) in *.
  rewrite <- app_assoc in *.
  set (log' := cs_log st ++ map (pt_arg ds) nests ++ map (pt_arg ds) nests2) in *.
  apply bind_Some in H. destruct H as ([bx bf] & Et & H). apply bind_Some in H. destruct H as ([ai lo] & Ea & H).
  assert (Hlo : exists xf, In xf pop2 /\ snd xf = lo /\ forall w, In w pop2 -> (lo <= snd w)%Q).
  { apply argmin_spec in Ea. destruct Ea as (X1 & X2 & _). rewrite nth_error_map in X1. destruct (nth_error pop2 ai) as [xf|] eqn:Ex; [|discriminate].
    inversion X1. exists xf. split; [eapply nth_error_In; eauto|]. split; auto. intros w Hw. rewrite H7. apply X2. apply in_map; auto. }
  inversion H; subst st'; clear H. destruct (track_le _ _ _ _ Et) as (T1 & T2).
  assert (Mb : member log' (bx, bf)).
  { apply track_from in Et. destruct Et as [Et|Et].
    - assert (Eb : cs_best st = (bx, bf)) by congruence. rewrite Eb in C. eapply member_mono; [|exact C]. intros z Hz. apply in_or_app; auto.
    - rewrite Forall_forall in R2. auto. }
  assert (Db : forall z, In z log' -> (bf <= G z)%Q).
  { intros z Hz. destruct (R3 z Hz) as (xf & X1 & X2). specialize (T2 _ X1). lra. }
  assert (Bo : best_of m fit log' (pt_arg ds bx) (as_min m bf)).
  { apply min_of_best. destruct Mb as (X1 & X2 & X3). simpl in X2. split; auto. split; auto. rewrite X2. reflexivity. }
  assert (Ll : length log' = n * (2 * S k + 1)).
  { unfold log'. rewrite !app_length, !map_length, H1. rewrite M2, N2, A. lia. }
  split; [|cbn [cs_pop]].
  2:{ clear - P4 R4. revert P4 R4. generalize pop1 pop2 (cs_pop st). intros p1 p2 p0 H. revert p2. induction H as [|a b la lb Hab H IH]; intros p2 H2; inversion H2 as [|? c ? lc Hbc H3]; subst; constructor; [|apply IH; auto]. eapply Qle_trans; eassumption. }
  unfold cs_inv. cbn [cs_pop cs_best cs_local cs_global cs_log fst snd].
  split; [auto|]. split; [auto|]. split; [auto|]. split; [auto|]. split; [auto|].
  split. { unfold log'. rewrite !Forall_app. split; auto. split; rewrite Forall_map; [eapply Forall_impl; [|exact N1]|eapply Forall_impl; [|exact M1]]; intros; apply arg_feasible; auto. }
  split; [auto|]. split. { destruct H2 as (rest & H2). unfold log'. rewrite H2, <- app_assoc. eauto. }
  split. { rewrite app_length; simpl; lia. }
  split. { intros j v Hj. refine (by_count_snoc m fit (fun j => n * (2 * j + 3)) (cs_log st) (cs_global st) _ (pt_arg ds bx) (as_min m bf) H4 _ _ Bo j v Hj).
    - intros i Hi. rewrite H1. apply Nat.mul_le_mono_l. lia.
    - fold log'. rewrite Ll, H3. f_equal. lia. }
  split. { intros v Hv. simpl in Hv. rewrite Nat.sub_0_r in Hv. rewrite nth_error_app2, H3, Nat.sub_diag in Hv by lia. inversion Hv. reflexivity. }
  apply Forall2_app; auto. constructor; auto.
  destruct Hlo as (xf & X1 & X2 & X3). assert (bf == lo)%Q.
  { pose proof (T2 _ X1). destruct Mb as (Y1 & Y2 & Y3). simpl in Y2, Y3. destruct (R3 _ Y3) as (w & Z1 & Z2). rewrite <- Y2 in Z2. specialize (X3 _ Z1). rewrite X2 in *. lra. }
  destruct m; simpl; lra.
Qed.

Lemma cs_init_inv init i f x : good_init ds n init -> argmin (map (pt_score m fit ds) init) = Some (i, f) -> nth_error init i = Some x ->
  cs_inv init 0 (CsSt (scored m fit ds init) (x, f) [] [] (map (pt_arg ds) init)).
Proof.
  intros (L & F) Ea Ex. pose proof (map_arg ds W init F) as Ma.
  assert (Fi : Forall (ints_ok ds) init) by (eapply Forall_impl; [|exact F]; intros; eapply feasible_ints; eauto).
  apply argmin_spec in Ea. destruct Ea as (X1 & X2 & _). rewrite nth_error_map, Ex in X1. inversion X1 as [X3].
  unfold cs_inv. cbn [cs_pop cs_best cs_local cs_global cs_log fst snd].
  split; [rewrite scored_length; auto|]. split; [apply scored_member; auto; apply incl_refl|].
  split. { split; [|split; [reflexivity|]]; simpl. - rewrite Forall_forall in Fi. apply Fi. eapply nth_error_In; eauto. - apply in_map. eapply nth_error_In; eauto. }
  split. { intros z Hz. apply in_map_iff in Hz. destruct Hz as (y & <- & Hy). rewrite X3. apply X2. change (G (pt_arg ds y)) with (pt_score m fit ds y). apply in_map; auto. }
  split. { intros z Hz. apply in_map_iff in Hz. destruct Hz as (y & <- & Hy). exists (y, G (pt_arg ds y)). split; [apply scored_In; auto|simpl; lra]. }
  split; [rewrite Ma; auto|]. split; [rewrite map_length; lia|]. split; [exists []; rewrite app_nil_r; auto|].
  split; auto. split; [intros [|j] v; discriminate|]. split; [discriminate|constructor].
Qed.

(** The report of a cuckoo search run. *)
Lemma cs_best_ok ngen fly drop init r : good_init ds n init -> cs_evolute expf m fit ds mt pa ngen fly drop init = Some r ->
  best_of m fit (pr_log r) (nearest_point ds (pr_bx r)) (pr_by r) /\ ints_ok ds (pr_bx r) /\
  Forall (feasible ds) (pr_log r) /\ length (pr_log r) = n * (2 * ngen + 1) /\ (exists rest, pr_log r = init ++ rest) /\
  length (pr_hg r) = ngen /\ Forall2 Qeq (pr_hl r) (pr_hg r) /\
  (forall k v, nth_error (pr_hg r) k = Some v -> exists z, best_of m fit (firstn (n * (2 * k + 3)) (pr_log r)) z v) /\
  never_worse m (pr_hg r) /\ nth_error (pr_hg r) (ngen - 1) = Some (pr_by r) /\
  length (pr_pop r) = n /\ Forall2 (fun z v => (v == fit (nearest_point ds z))%Q) (pr_pop r) (pr_pf r).
Proof.
  intros Gi H. unfold cs_evolute in H. apply bind_Some in H. destruct H as ([i f] & Ea & H).
  apply bind_Some in H. destruct H as (x & Ex & H). destruct (ngen =? 0) eqn:E0; [discriminate|]. apply Nat.eqb_neq in E0.
  apply bind_Some in H. destruct H as (st & Eg & H). inversion H; subst r; clear H.
  pose proof (cs_init_inv init i f x Gi Ea Ex) as I0.
  change 1 with (1 + 0) in Eg at 1. rewrite gens_shift in Eg.
  apply (gens_nat _ (cs_inv init)) with (1 := fun k s s' Hi Hs => proj1 (cs_step ngen fly drop init k s s' Hi Hs)) in Eg; auto. simpl in Eg.
  destruct Eg as (A & B & C & D & E & F & H1 & H2 & H3 & H4 & H5 & H6).
  cbn [pr_bx pr_by pr_hl pr_hg pr_pop pr_pf pr_log].
  assert (Bo : best_of m fit (cs_log st) (pt_arg ds (fst (cs_best st))) (as_min m (snd (cs_best st)))).
  { apply min_of_best. destruct C as (X1 & X2 & X3). split; auto. split; auto. rewrite X2. reflexivity. }
  destruct C as (X1 & X2 & X3). split; [rewrite <- arg_nearest; auto; apply ints_length; auto|]. split; auto. split; auto. split; auto. split; auto. split; auto.
  split; auto. split; auto. split. { apply (by_count_mono m fit (fun j => n * (2 * j + 3)) (cs_log st)); auto. intros; apply Nat.mul_le_mono_l; lia. }
  split. { destruct (nth_error (cs_global st) (ngen - 1)) as [v|] eqn:Ev; [f_equal; auto|]. apply nth_error_None in Ev. lia. }
  split; [rewrite map_length; auto|].
  clear - B W. induction B as [|[y v] l (Y1 & Y2 & Y3) B IH]; simpl; constructor; auto. simpl in *. rewrite Y2. unfold G.
  rewrite as_min_invol. rewrite arg_nearest by (auto; apply ints_length; auto). reflexivity.
Qed.

(** In every generation no nest gets worse. *)
Lemma cs_rows ngen fly drop init i f x k st st' : good_init ds n init ->
  argmin (map (pt_score m fit ds) init) = Some (i, f) -> nth_error init i = Some x ->
  gens (cs_gen expf m fit ds mt pa ngen fly drop) 1 k (CsSt (scored m fit ds init) (x, f) [] [] (map (pt_arg ds) init)) = Some st ->
  cs_gen expf m fit ds mt pa ngen fly drop (S k) st = Some st' ->
  Forall2 (fun o w => (snd w <= snd o)%Q) (cs_pop st) (cs_pop st').
Proof.
  intros Gi Ea Ex Eg H. pose proof (cs_init_inv init i f x Gi Ea Ex) as I0.
  change 1 with (1 + 0) in Eg at 1. rewrite gens_shift in Eg.
  apply (gens_nat _ (cs_inv init)) with (1 := fun k s s' Hi Hs => proj1 (cs_step ngen fly drop init k s s' Hi Hs)) in Eg; auto. simpl in Eg.
  exact (proj2 (cs_step ngen fly drop init k st st' Eg H)).
Qed.
End C.

Lemma cs_total expf m fit ds pa : wf_dims ds -> forall n ngen fly drop init, 1 <= n -> good_init ds n init -> ngen <> 0 ->
  exists r, cs_evolute expf m fit ds NearestInt pa ngen fly drop init = Some r.
Proof.
  intros W n ngen fly drop init n1 Gi Hn. unfold cs_evolute.
  destruct (argmin_Some (map (pt_score m fit ds) init)) as (i & f & Ea).
  { destruct Gi as (L & _). intros E. apply map_eq_nil in E. rewrite E in L. simpl in L. lia. }
  rewrite Ea. cbn [bind]. destruct (argmin_spec _ _ _ Ea) as (Hi & _).
  rewrite nth_error_map in Hi. destruct (nth_error init i) as [x|] eqn:Ex; [|discriminate]. cbn [bind].
  replace (ngen =? 0) with false by (symmetry; apply Nat.eqb_neq; auto).
  pose proof (cs_init_inv m fit ds W n n1 init i f x Gi Ea Ex) as I0.
  change 1 with (1 + 0) at 1. rewrite gens_shift.
  match goal with |- context [gens _ 0 ngen ?s0] => set (st0 := s0) in * end.
  destruct (gens_nat_total (fun j => cs_gen expf m fit ds NearestInt pa ngen fly drop (1 + j)) (cs_inv m fit ds n init) ngen 0 st0) as (st & Es & _); auto.
  - intros k s Hk I. assert (X : exists s', cs_gen expf m fit ds NearestInt pa ngen fly drop (1 + k) s = Some s').
    { destruct I as (A & B & C & D & _). unfold cs_gen. cbv zeta.
      assert (Lb : length (fst (cs_best s)) = length ds) by (destruct C as (C & _); apply ints_length; auto).
      assert (T1 : exists nests, traverse (cs_fly expf (anneal1 (1 + k - 1) ngen) NearestInt ds (fst (cs_best s)) (fly (1 + k))) 0 (map fst (cs_pop s)) = Some nests).
      { apply (traverse_total _ (fun y => length y = length ds)).
        - intros j y Ly. unfold cs_fly. cbv zeta.
          match goal with |- context [coords ?f0 0 ds y] => destruct (coords_total f0 ds 0 y Ly) as (v & Ev & Lv) end.
          { intros t d a Ht. simpl. destruct (nth_error (fst (cs_best s)) t) eqn:Et; [cbn [bind]; eauto|].
            apply nth_error_None in Et. assert (t < length ds) by (apply nth_error_Some; congruence). lia. }
          rewrite Ev. cbn [bind]. destruct (ensure_nearest_total expf (anneal1 (1 + k - 1) ngen) (vd_rand (cd_vd (fly (1 + k) j))) (vd_pick (cd_vd (fly (1 + k) j))) ds [] v Lv) as (w & Ew).
          exists w. exact Ew.
        - rewrite Forall_map. eapply Forall_impl; [|exact B]. intros xf (X & _). apply ints_length; auto. }
      destruct T1 as (nests & En). rewrite En. cbn [bind].
      apply nests_ints with (ds := ds) in En; [|intros; eapply fly_ints; eauto]. destruct En as (N1 & N2). rewrite map_length in N2.
      assert (T2 : exists nests2, traverse (cs_abandon expf (anneal1 (1 + k - 1) ngen) pa NearestInt ds nests (drop (1 + k))) 0 nests = Some nests2).
      { apply (traverse_total _ (fun y => length y = length ds)).
        - assert (R : forall t, exists v, nth_error nests (t mod length nests) = Some v /\ length v = length ds).
          { intros t. destruct (nth_error nests (t mod length nests)) as [v|] eqn:Ev.
            - exists v. split; auto. apply nth_error_In in Ev. rewrite Forall_forall in N1. apply ints_length; auto.
            - apply nth_error_None in Ev. pose proof (Nat.mod_upper_bound t (length nests)). lia. }
          intros j y Ly. unfold cs_abandon.
          destruct (R (ad_p1 (drop (1 + k)) j)) as (a & Ea' & La). destruct (R (ad_p2 (drop (1 + k)) j)) as (b & Eb & Lb').
          rewrite Ea', Eb. cbn [bind].
          match goal with |- context [coords ?f0 0 ds y] => destruct (coords_total f0 ds 0 y Ly) as (v & Ev & Lv) end.
          { intros t d q Ht. assert (t < length ds) by (apply nth_error_Some; congruence). simpl.
            destruct (nth_error a t) eqn:E1; [|apply nth_error_None in E1; lia]. destruct (nth_error b t) eqn:E2; [|apply nth_error_None in E2; lia]. cbn [bind]. eauto. }
          rewrite Ev. cbn [bind]. destruct (settle_total expf ds W (anneal1 (1 + k - 1) ngen) NearestInt (ad_vd (drop (1 + k)) j) v Lv) as (w & Ew & _).
          { split; [discriminate|auto]. }
          eauto.
        - eapply Forall_impl; [|exact N1]. intros y Hy. apply ints_length; auto. }
      destruct T2 as (nests2 & En2). rewrite En2. cbn [bind].
      apply nests_ints with (ds := ds) in En2; [|intros; eapply abandon_ints; eauto]. destruct En2 as (M1 & M2).
      match goal with |- context [track (Some (cs_best s)) ?l] => set (pop2 := l) in * end.
      assert (Lp : length pop2 = n).
      { unfold pop2. destruct (greedy_spec (cs_pop s) (scored m fit ds nests)) as (X & _); [rewrite (scored_length m fit ds n n1); lia|].
        destruct (greedy_spec (cs_greedy (cs_pop s) (scored m fit ds nests)) (scored m fit ds nests2)) as (Y & _); [rewrite (scored_length m fit ds n n1); lia|]. lia. }
      destruct (track_Some pop2 (Some (cs_best s))) as (xf & Et); [left; discriminate|]. rewrite Et. cbn [bind].
      destruct (argmin_Some (map snd pop2)) as (ai & af & Eaa).
      { intros E. apply map_eq_nil in E. rewrite E in Lp. simpl in Lp. lia. }
      rewrite Eaa. cbn [bind]. eauto. }
    destruct X as (s' & X). exists s'. split; auto. eapply cs_step; eauto.
  - rewrite Es. cbn [bind]. eauto.
Qed.
