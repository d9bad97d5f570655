(** Facts about the shared population loop. *)
From Coq Require Import List Arith ZArith QArith Bool Lia Lqa.
From Verif Require Import Base BaseFacts Space_Model Space_Spec Space_Facts Opt_Model Opt_Spec Opt_Facts Opt_Facts2 Pop_Model Pop_Spec.
Import ListNotations.
Open Scope nat_scope.

Lemma min_of_iff {X} (g : X -> Q) s s' x y : (forall z, In z s <-> In z s') -> min_of g s x y -> min_of g s' x y.
Proof. intros H (A & B & C). split; [apply H; auto|]. split; auto. intros z Hz. apply C. apply H; auto. Qed.

(** The tracked best of what was seen. *)
Definition tracks {X} (g : X -> Q) (b : option (X * Q)) (seen : list X) : Prop :=
  match b with None => seen = [] | Some (x, f) => min_of g seen x f end.

Lemma track_tracks (g : list Q -> Q) l : forall b seen, tracks g b seen -> Forall (fun xf => (snd xf == g (fst xf))%Q) l ->
  tracks g (track b l) (seen ++ map fst l).
Proof.
  induction l as [|[x f] l IH]; intros b seen T F; simpl.
  - rewrite app_nil_r. exact T.
  - inversion F as [|? ? F1 F2]; subst. simpl in F1.
    change (seen ++ x :: map fst l) with (seen ++ [x] ++ map fst l). rewrite app_assoc.
    apply (IH _ (seen ++ [x])); auto. destruct b as [[x' f']|]; simpl in *.
    + destruct T as (T1 & T2 & T3). destruct (Qltb f f') eqn:E; qprop.
      * split; [apply in_or_app; simpl; auto|]. split; auto. intros z Hz. apply in_app_or in Hz. destruct Hz as [Hz|[<-|[]]].
        -- apply T3 in Hz. lra.
        -- lra.
      * split; [apply in_or_app; auto|]. split; auto. intros z Hz. apply in_app_or in Hz. destruct Hz as [Hz|[<-|[]]]; auto. lra.
    + subst seen. split; [simpl; auto|]. split; auto. intros z [<-|[]]. lra.
Qed.
Lemma track_Some l b : (b <> None \/ l <> []) -> exists xf, track b l = Some xf.
Proof.
  revert b. induction l as [|xf l IH]; intros b H; simpl.
  - unfold track. simpl. destruct b as [p|]; [eauto|]. destruct H as [H|H]; congruence.
  - apply IH. left. destruct b as [[x f]|]; simpl; [destruct (Qltb _ _)|]; discriminate.
Qed.
(** The tracked pair is the old one or one of the list. *)
Lemma track_from l : forall b xf, track b l = Some xf -> b = Some xf \/ In xf l.
Proof.
  induction l as [|a l IH]; intros b xf H; simpl in H; auto.
  apply IH in H. destruct H as [H|H]; [|simpl; auto].
  destruct b as [[x f]|]; simpl in H; [destruct (Qltb _ _)|]; inversion H; subst; simpl; auto.
Qed.

Lemma never_worse_snoc m h y : never_worse m h -> (forall v, In v h -> as_good m y v) -> never_worse m (h ++ [y]).
Proof.
  intros H1 H2 i j a b Hij Ha Hb. destruct (Nat.lt_ge_cases j (length h)) as [L|L].
  - rewrite nth_error_app1 in Ha, Hb by lia. exact (H1 i j a b Hij Ha Hb).
  - assert (j = length h). { assert (j < length (h ++ [y])) by (apply nth_error_Some; congruence). rewrite app_length in *; simpl in *; lia. }
    subst. rewrite nth_error_app2, Nat.sub_diag in Hb by lia. simpl in Hb. inversion Hb; subst.
    destruct (Nat.lt_ge_cases i (length h)) as [L'|L'].
    + rewrite nth_error_app1 in Ha by lia. apply H2. eapply nth_error_In; eauto.
    + assert (i = length h) by lia. subst. rewrite nth_error_app2, Nat.sub_diag in Ha by lia. inversion Ha; subst. apply as_good_refl.
Qed.

Lemma never_worse_nil m : never_worse m [].
Proof. intros [|i] j a b _ H; discriminate. Qed.

Lemma firstn_app_le {A} n (a b : list A) : n <= length a -> firstn n (a ++ b) = firstn n a.
Proof. intros H. rewrite firstn_app. replace (n - length a) with 0 by lia. simpl. apply app_nil_r. Qed.
Lemma skipn_app_le {A} n (a b : list A) : n <= length a -> skipn n (a ++ b) = skipn n a ++ b.
Proof. intros H. rewrite skipn_app. replace (n - length a) with 0 by lia. reflexivity. Qed.

(** Histories grow with the log. *)
Lemma global_exact_snoc m fit n s log h blk x y : global_exact m fit n s log h -> length log = n * (length h + s - 1) -> 1 <= s ->
  length blk = n -> best_of m fit (log ++ blk) x y -> global_exact m fit n s (log ++ blk) (h ++ [y]).
Proof.
  intros G L Hs Lb B k v Hk. destruct (Nat.lt_ge_cases k (length h)) as [Lk|Lk].
  - rewrite nth_error_app1 in Hk by lia. rewrite firstn_app_le; [eauto|]. rewrite L. apply Nat.mul_le_mono_l. lia.
  - assert (k = length h). { assert (k < length (h ++ [y])) by (apply nth_error_Some; congruence). rewrite app_length in *; simpl in *; lia. }
    subst k. rewrite nth_error_app2, Nat.sub_diag in Hk by lia. inversion Hk; subst v.
    exists x. rewrite firstn_all2; auto. rewrite app_length, L, Lb.
    replace (length h + s) with (S (length h + s - 1)) by lia. replace (S (length h + s - 1) - 1) with (length h + s - 1) by lia. rewrite Nat.mul_succ_r. lia.
Qed.
Lemma local_exact_snoc m fit n s log h blk x y : local_exact m fit n s log h -> length log = n * (length h + s - 1) -> 1 <= s ->
  length blk = n -> best_of m fit blk x y -> local_exact m fit n s (log ++ blk) (h ++ [y]).
Proof.
  intros G L Hs Lb B k v Hk. destruct (Nat.lt_ge_cases k (length h)) as [Lk|Lk].
  - rewrite nth_error_app1 in Hk by lia. destruct (G _ _ Hk) as [z Hz].
    assert (n * (k + s - 1) + n <= n * (length h + s - 1)).
    { replace (n * (k + s - 1) + n) with (n * (S (k + s - 1))) by (rewrite Nat.mul_succ_r; lia). apply Nat.mul_le_mono_l. lia. }
    rewrite skipn_app_le by lia. rewrite firstn_app_le; [eauto|]. rewrite skipn_length. lia.
  - assert (k = length h). { assert (k < length (h ++ [y])) by (apply nth_error_Some; congruence). rewrite app_length in *; simpl in *; lia. }
    subst k. rewrite nth_error_app2, Nat.sub_diag in Hk by lia. inversion Hk; subst v.
    exists x. rewrite <- L, skipn_app, skipn_all, Nat.sub_diag. simpl. rewrite firstn_all2; auto. lia.
Qed.
Lemma global_exact_nil m fit n s log : global_exact m fit n s log [].
Proof. intros [|k] v H; discriminate. Qed.
Lemma local_exact_nil m fit n s log : local_exact m fit n s log [].
Proof. intros [|k] v H; discriminate. Qed.

(** An exact global history never gets worse. *)
Lemma global_exact_mono m fit n s log h : global_exact m fit n s log h -> never_worse m h.
Proof.
  intros G i j a b Hij Ha Hb. destruct (G _ _ Ha) as (x & X1 & X2 & X3). destruct (G _ _ Hb) as (y & Y1 & Y2 & Y3).
  assert (In x (firstn (n * (j + s)) log)).
  { eapply firstn_mono; [|exact X1]. apply Nat.mul_le_mono_l. lia. }
  apply Y3 in H. destruct m; simpl in *; lra.
Qed.

(** gens with an invariant that knows how many generations were done. *)
Lemma gens_nat {St} (step : nat -> St -> option St) (I : nat -> St -> Prop) :
  (forall k s s', I k s -> step k s = Some s' -> I (S k) s') ->
  forall n g s s', I g s -> gens step g n s = Some s' -> I (g + n) s'.
Proof.
  intros H n. induction n as [|n IH]; intros g s s' Hi Hg; simpl in Hg.
  - inversion Hg; subst. rewrite Nat.add_0_r. auto.
  - apply bind_Some in Hg. destruct Hg as (s1 & E & Hg). rewrite <- Nat.add_succ_comm. eapply IH; eauto.
Qed.
Lemma gens_nat_total {St} (step : nat -> St -> option St) (I : nat -> St -> Prop) :
  forall n g s, (forall k s, g <= k < g + n -> I k s -> exists s', step k s = Some s' /\ I (S k) s') ->
  I g s -> exists s', gens step g n s = Some s' /\ I (g + n) s'.
Proof.
  intros n. induction n as [|n IH]; intros g s H Hi; simpl.
  - exists s. rewrite Nat.add_0_r. auto.
  - destruct (H g s ltac:(lia) Hi) as (s1 & E & Hi1). rewrite E. simpl.
    destruct (IH (S g) s1) as (s' & E' & I'); auto. { intros k s2 Hk. apply H. lia. }
    exists s'. rewrite <- Nat.add_succ_comm. auto.
Qed.

Lemma traverse_total_idx {A B} (f : nat -> A -> option B) l : forall i,
  (forall k a, i <= k < i + length l -> In a l -> exists b, f k a = Some b) -> exists l', traverse f i l = Some l'.
Proof.
  induction l as [|a l IH]; intros i H; simpl; eauto.
  destruct (H i a) as (b & E); [simpl; lia|simpl; auto|]. rewrite E. cbn [bind].
  destruct (IH (S i)) as (r & Er). { intros k c Hk Hc. apply H; simpl; auto. simpl in Hk. lia. }
  rewrite Er. cbn [bind]. eauto.
Qed.

Section Facts.
Context (expf : Q -> Q) (m : mode) (fit : list Q -> Q) (ds : list dimn) (W : wf_dims ds).

Lemma settle_total alpha mt dr v : length v = length ds -> discrete_ok mt ds ->
  exists w, settle expf alpha mt dr ds v = Some w /\ feasible ds w.
Proof.
  intros L (Hm & HR). unfold settle. change (bnds ds) with (dim_bounds ds).
  destruct (ensure_discrete_ok expf alpha mt (vd_rand dr) (vd_pick dr) ds _ Hm W HR (clip_inside ds v W L)) as (w & E & F & _).
  eauto.
Qed.

Lemma pt_arg_feasible x : feasible ds x -> pt_arg ds x = x.
Proof. intros F. unfold pt_arg. change (bnds ds) with (dim_bounds ds). apply clip_id; auto. apply feasible_inside; auto. Qed.
Lemma pt_score_feasible x : feasible ds x -> pt_score m fit ds x = as_min m (fit x).
Proof. intros F. unfold pt_score. rewrite pt_arg_feasible; auto. Qed.
Lemma map_arg pos : Forall (feasible ds) pos -> map (pt_arg ds) pos = pos.
Proof. intros F. induction F; simpl; auto. rewrite pt_arg_feasible by auto. congruence. Qed.
Lemma map_score pos : Forall (feasible ds) pos -> map (pt_score m fit ds) pos = map (fun x => as_min m (fit x)) pos.
Proof. intros F. apply map_ext_in. intros x Hx. apply pt_score_feasible. rewrite Forall_forall in F. auto. Qed.

Lemma combine_score (g : list Q -> Q) pos : Forall (fun xf => (snd xf == g (fst xf))%Q) (combine pos (map g pos)).
Proof. induction pos; simpl; constructor; simpl; auto. reflexivity. Qed.
Lemma combine_fst {A B} (l : list A) (r : list B) : length l = length r -> map fst (combine l r) = l.
Proof. revert r. induction l; destruct r; simpl; intros; try lia; auto. f_equal. auto. Qed.

Lemma rows_loop_inv f n pos pos' : (forall i ps x y, Forall (feasible ds) ps -> feasible ds x -> f i ps x = Some y -> feasible ds y) ->
  Forall (feasible ds) pos -> rows_loop f n pos = Some pos' -> Forall (feasible ds) pos' /\ length pos' = length pos.
Proof.
  intros Hf Hp H. unfold rows_loop in H.
  apply (gens_inv _ (fun ps => Forall (feasible ds) ps /\ length ps = length pos)) in H; auto.
  intros i s s' (A & B) E. apply bind_Some in E. destruct E as (x & Ex & E). apply bind_Some in E. destruct E as (y & Ey & E).
  inversion E; subst. split; [|rewrite length_set_nth; auto].
  apply Forall_set_nth; auto. eapply Hf; eauto. rewrite Forall_forall in A. apply A. eapply nth_error_In; eauto.
Qed.
Lemma rows_loop_total f n pos : (forall i ps x, length ps = length pos -> Forall (feasible ds) ps -> feasible ds x -> i < length pos -> exists y, f i ps x = Some y /\ feasible ds y) ->
  Forall (feasible ds) pos -> n <= length pos -> exists pos', rows_loop f n pos = Some pos' /\ Forall (feasible ds) pos' /\ length pos' = length pos.
Proof.
  intros Hf Hp Hn. unfold rows_loop.
  assert (G : forall todo i s, i + todo <= length pos -> Forall (feasible ds) s /\ length s = length pos ->
    exists s', gens (fun i ps => let* x := nth_error ps i in let* y := f i ps x in Some (set_nth ps i y)) i todo s = Some s' /\ Forall (feasible ds) s' /\ length s' = length pos).
  { induction todo as [|t IH]; intros i s Hi (A & B); simpl; [eauto|].
    destruct (nth_error s i) as [x|] eqn:Ex; [|apply nth_error_None in Ex; lia]. simpl.
    assert (Fx : feasible ds x). { rewrite Forall_forall in A. apply A. eapply nth_error_In; eauto. }
    destruct (Hf i s x B A Fx ltac:(lia)) as (y & Ey & Fy). rewrite Ey. simpl.
    apply IH; [lia|]. split; [apply Forall_set_nth; auto|rewrite length_set_nth; auto]. }
  apply (G n 0 pos); auto; lia.
Qed.

Lemma coords_length f : forall dd j x y, coords f j dd x = Some y -> length y = length dd.
Proof.
  induction dd as [|d dd IH]; intros j x y H; simpl in H; [inversion H; auto|].
  destruct x as [|a x]; [discriminate|]. apply bind_Some in H. destruct H as (b & Eb & H). apply bind_Some in H. destruct H as (r & Er & H).
  inversion H; subst. simpl. f_equal. eauto.
Qed.
Lemma coords_total f : forall dd j x, length x = length dd ->
  (forall i d a, nth_error dd i = Some d -> exists b, f (j + i) d a = Some b) ->
  exists y, coords f j dd x = Some y /\ length y = length dd.
Proof.
  induction dd as [|d dd IH]; intros j x L H; simpl; [eauto|].
  destruct x as [|a x]; [discriminate|].
  destruct (H 0 d a eq_refl) as (b & Eb). rewrite Nat.add_0_r in Eb. rewrite Eb. simpl.
  destruct (IH (S j) x ltac:(simpl in L; lia)) as (y & Ey & Ly).
  { intros i d' a' Hi. destruct (H (S i) d' a' Hi) as (b' & Eb'). exists b'. rewrite <- Eb'. f_equal. lia. }
  rewrite Ey. simpl. exists (b :: y). simpl. auto.
Qed.

(** * The engine *)
Context (move : nat -> list Q -> list (list Q) -> option (list (list Q))).
Context (n : nat) (n1 : 1 <= n).
Context (move_ok : forall k b pos pos', Forall (feasible ds) pos -> length pos = n -> feasible ds b ->
           move k b pos = Some pos' -> Forall (feasible ds) pos' /\ length pos' = n).

Let g := fun x => as_min m (fit x).

Definition pop_inv (init : list (list Q)) (k : nat) (st : pop_state) : Prop :=
  Forall (feasible ds) (po_pos st) /\ length (po_pos st) = n /\
  min_of g (po_log st) (fst (po_best st)) (snd (po_best st)) /\
  Forall (feasible ds) (po_log st) /\
  (exists rest, po_log st = rest ++ po_pos st /\ (k <> 0 -> exists rest', rest = init ++ rest') /\ (k = 0 -> rest = [] /\ po_pos st = init)) /\
  length (po_log st) = n * S k /\
  po_fits st = map g (po_pos st) /\
  length (po_local st) = k /\ length (po_global st) = k /\
  global_exact m fit n 2 (po_log st) (po_global st) /\
  local_exact m fit n 2 (po_log st) (po_local st) /\
  (forall v, nth_error (po_global st) (k - 1) = Some v -> v = as_min m (snd (po_best st))).

Lemma pop_step init k0 k st st' : pop_inv init k st -> pop_gen m fit ds move (k0 + k) st = Some st' -> pop_inv init (S k) st'.
Proof.
  intros (A & B & C & D & E & F & G & H1 & H2 & H3 & H4 & H5) Hs. unfold pop_gen in Hs.
  apply bind_Some in Hs. destruct Hs as (pos & Em & Hs).
  assert (Fb : feasible ds (fst (po_best st))).
  { destruct C as (C & _). rewrite Forall_forall in D. auto. }
  destruct (move_ok _ _ _ _ A B Fb Em) as (Fp & Lp).
  cbv zeta in Hs. rewrite (map_score pos Fp) in Hs. rewrite (map_arg pos Fp) in Hs. fold g in Hs.
  change (map (fun x => g x) pos) with (map g pos) in Hs.
  apply bind_Some in Hs. destruct Hs as ([bx bf] & Et & Hs).
  apply bind_Some in Hs. destruct Hs as ([ai av] & Ea & Hs). inversion Hs; subst st'; clear Hs.
  assert (T : tracks g (track (Some (po_best st)) (combine pos (map g pos))) (po_log st ++ map fst (combine pos (map g pos)))).
  { apply track_tracks; [simpl|apply combine_score]. destruct (po_best st); exact C. }
  rewrite Et in T. rewrite combine_fst in T by (rewrite map_length; auto). simpl in T.
  apply min_of_argmin in Ea. destruct Ea as (ax & Eax & Ma).
  assert (Hb : best_of m fit (po_log st ++ pos) bx (as_min m bf)) by (apply min_of_best; exact T).
  assert (Hl : best_of m fit pos ax (as_min m av)) by (apply min_of_best; exact Ma).
  unfold pop_inv. cbn [po_pos po_best po_log po_fits po_local po_global fst snd].
  repeat match goal with |- _ /\ _ => split end; auto.
  - apply Forall_app; auto.
  - exists (po_log st). split; auto. split; [|lia]. intros _. destruct E as (rest & E1 & E2 & E3).
    destruct (Nat.eq_dec k 0) as [->|Hk].
    + destruct E3 as (E3 & E4); auto. exists []. rewrite E1, E3, E4, app_nil_r. reflexivity.
    + destruct (E2 Hk) as (r' & ->). exists (r' ++ po_pos st). rewrite E1, <- app_assoc. reflexivity.
  - rewrite app_length, F, Lp. rewrite (Nat.mul_succ_r n (S k)). lia.
  - rewrite app_length; simpl; lia.
  - rewrite app_length; simpl; lia.
  - eapply global_exact_snoc; eauto. rewrite F, H2. f_equal. lia.
  - eapply local_exact_snoc; eauto. rewrite F, H1. f_equal. lia.
  - intros v Hv. simpl in Hv. rewrite Nat.sub_0_r in Hv. rewrite nth_error_app2, H2, Nat.sub_diag in Hv by lia. inversion Hv. reflexivity.
Qed.

Lemma pop_init_inv init i f x : good_init ds n init -> argmin (map (pt_score m fit ds) init) = Some (i, f) -> nth_error init i = Some x ->
  pop_inv init 0 (PopSt init (x, f) [] [] (map (pt_score m fit ds) init) (map (pt_arg ds) init)).
Proof.
  intros (L & F) Ea Ex. rewrite (map_score init F), (map_arg init F) in *.
  change (map (fun x => as_min m (fit x)) init) with (map g init) in *.
  apply min_of_argmin in Ea. destruct Ea as (ax & Eax & Ma). rewrite Ex in Eax. inversion Eax; subst ax.
  unfold pop_inv. cbn [po_pos po_best po_log po_fits po_local po_global fst snd].
  repeat match goal with |- _ /\ _ => split end; auto.
  - exists []. simpl. split; auto. split; [lia|]. auto.
  - lia.
  - apply global_exact_nil.
  - apply local_exact_nil.
  - intros v Hv. discriminate.
Qed.

Lemma gens_shift {St} (step : nat -> St -> option St) k0 todo s : forall k,
  gens step (k0 + k) todo s = gens (fun j => step (k0 + j)) k todo s.
Proof.
  revert s. induction todo as [|t IH]; intros s k; simpl; auto.
  destruct (step (k0 + k) s); simpl; auto. rewrite <- Nat.add_succ_r. apply IH.
Qed.

Lemma pop_best k0 ngen init r : good_init ds n init -> pop_evolute m fit ds move k0 ngen init = Some r ->
  report m fit ds n 2 ngen init (pr_log r) (pr_bx r) (pr_by r) (pr_hg r) (pr_pop r) (pr_pf r) /\
  length (pr_hl r) = ngen /\ local_exact m fit n 2 (pr_log r) (pr_hl r).
Proof.
  intros Gi H. unfold pop_evolute in H. apply bind_Some in H. destruct H as ([i f] & Ea & H).
  apply bind_Some in H. destruct H as (x & Ex & H). destruct (ngen =? 0) eqn:E0; [discriminate|]. apply Nat.eqb_neq in E0.
  apply bind_Some in H. destruct H as (st & Eg & H). inversion H; subst r; clear H.
  pose proof (pop_init_inv init i f x Gi Ea Ex) as I0.
  rewrite <- (Nat.add_0_r k0) in Eg. rewrite gens_shift in Eg.
  apply (gens_nat _ (pop_inv init)) with (1 := fun k s s' => pop_step init k0 k s s') in Eg; auto. simpl in Eg.
  destruct Eg as (A & B & C & D & E & F & G & H1 & H2 & H3 & H4 & H5).
  unfold report. cbn [pr_bx pr_by pr_hl pr_hg pr_pop pr_pf pr_log].
  repeat match goal with |- _ /\ _ => split end; auto.
  - apply min_of_best; exact C.
  - rewrite F. f_equal. lia.
  - destruct E as (rest & E1 & E2 & E3). destruct (E2 E0) as (r' & ->). exists (r' ++ po_pos st). rewrite E1. apply app_assoc_reverse.
  - destruct E as (rest & E1 & _). eauto.
  - eapply global_exact_mono; eauto.
  - destruct (nth_error (po_global st) (ngen - 1)) as [v|] eqn:Ev; [f_equal; auto|]. apply nth_error_None in Ev. lia.
  - rewrite G. clear. induction (po_pos st); simpl; constructor; auto. apply as_min_invol.
Qed.

Lemma pop_total k0 ngen init : good_init ds n init ->
  (forall k b pos, k0 <= k < k0 + ngen -> Forall (feasible ds) pos -> length pos = n -> feasible ds b -> exists pos', move k b pos = Some pos') ->
  ngen <> 0 -> exists r, pop_evolute m fit ds move k0 ngen init = Some r.
Proof.
  intros Gi Hm Hn. unfold pop_evolute.
  destruct (argmin_Some (map (pt_score m fit ds) init)) as (i & f & Ea).
  { destruct Gi as (L & _). intros E. apply map_eq_nil in E. rewrite E in L. simpl in L. lia. }
  rewrite Ea. cbn [bind]. destruct (argmin_spec _ _ _ Ea) as (Hi & _).
  rewrite nth_error_map in Hi. destruct (nth_error init i) as [x|] eqn:Ex; [|discriminate]. cbn [bind].
  replace (ngen =? 0) with false by (symmetry; apply Nat.eqb_neq; auto).
  pose proof (pop_init_inv init i f x Gi Ea Ex) as I0.
  rewrite <- (Nat.add_0_r k0). rewrite gens_shift.
  destruct (gens_nat_total (fun j => pop_gen m fit ds move (k0 + j)) (pop_inv init)) with (n := ngen) (g := 0)
    (s := PopSt init (x, f) [] [] (map (pt_score m fit ds) init) (map (pt_arg ds) init)) as (st & Es & _); auto.
  - intros k s Hk I. assert (X : exists s', pop_gen m fit ds move (k0 + k) s = Some s').
    { destruct I as (A & B & C & D & _). unfold pop_gen.
      assert (Fb : feasible ds (fst (po_best s))). { destruct C as (C & _). rewrite Forall_forall in D. auto. }
      destruct (Hm (k0 + k) _ _ ltac:(lia) A B Fb) as (pos & Ep). rewrite Ep. cbn [bind]. cbv zeta.
      destruct (track_Some (combine pos (map (pt_score m fit ds) pos)) (Some (po_best s))) as (xf & Et); [left; discriminate|].
      rewrite Et. cbn [bind]. destruct (move_ok _ _ _ _ A B Fb Ep) as (_ & Lp).
      destruct (argmin_Some (map (pt_score m fit ds) pos)) as (ai & af & Eaa).
      { intros E. apply map_eq_nil in E. rewrite E in Lp. simpl in Lp. lia. }
      rewrite Eaa. cbn [bind]. eauto. }
    destruct X as (s' & X). exists s'. split; auto. eapply pop_step; eauto.
  - rewrite Es. cbn [bind]. eauto.
Qed.
End Facts.
