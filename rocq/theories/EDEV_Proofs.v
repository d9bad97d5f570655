From Coq Require Import List Arith ZArith QArith Lia Lqa Bool Permutation.
From Verif Require Import Base BaseFacts Space_Model Space_Spec Space_Proofs Opt_Model Opt_Spec Opt_Facts Opt_Facts2 ES_Proofs Pop_Model Pop_Spec Pop_Proofs Swarm_Model EDEV_Model EDEV_Spec.
Import ListNotations.
Open Scope nat_scope.

Local Opaque gnR1R2 reject.

(** * gather and scatter *)
Lemma gather_spec {A} idx (l r : list A) : gather idx l = Some r <-> Forall2 (fun i x => nth_error l i = Some x) idx r.
Proof.
  unfold gather. generalize 0 at 1. revert r. induction idx as [|i idx IH]; intros r k; cbn [traverse].
  - split; intros H; [inversion H; constructor|inversion H; auto].
  - split; intros H.
    + apply bind_Some in H. destruct H as (x & Ex & H). apply bind_Some in H. destruct H as (r' & Er & H).
      inversion H; subst. constructor; auto. apply (IH _ (S k)). auto.
    + inversion H as [|? x ? r' Hx Hr]; subst. rewrite Hx. cbn [bind]. apply (IH _ (S k)) in Hr. rewrite Hr. auto.
Qed.
Lemma gather_total {A} idx (l : list A) : Forall (fun i => i < length l) idx -> exists r, gather idx l = Some r.
Proof.
  intros F. induction F as [|i idx Hi F (r & IH)].
  - exists []. auto.
  - destruct (nth_error l i) as [x|] eqn:E; [|apply nth_error_None in E; lia].
    exists (x :: r). apply gather_spec. apply gather_spec in IH. constructor; auto.
Qed.
Lemma gather_length {A} idx (l r : list A) : gather idx l = Some r -> length r = length idx.
Proof. intros H. apply gather_spec in H. symmetry. eapply Forall2_length; eauto. Qed.
Lemma gather_nth {A} idx (l r : list A) k i : gather idx l = Some r -> nth_error idx k = Some i -> nth_error r k = nth_error l i.
Proof.
  intros H. apply gather_spec in H. revert k. induction H as [|i' x idx r Hx H IH]; intros [|k] E; try discriminate.
  - inversion E; subst. auto.
  - simpl. apply IH; auto.
Qed.
Lemma gather_Forall {A} (P : A -> Prop) idx l r : gather idx l = Some r -> Forall P l -> Forall P r.
Proof.
  intros H F. apply gather_spec in H. induction H as [|i x idx r Hx H IH]; constructor; auto.
  apply nth_error_In in Hx. rewrite Forall_forall in F. auto.
Qed.
Lemma gather_In {A} idx (l r : list A) x : gather idx l = Some r -> In x r -> In x l.
Proof.
  intros H. apply gather_spec in H. induction H as [|i y idx r Hy H IH]; simpl; [tauto|].
  intros [<-|Hx]; auto. eapply nth_error_In; eauto.
Qed.
Lemma gather_Forall2 {A B} (R : A -> B -> Prop) idx l l' r r' : gather idx l = Some r -> gather idx l' = Some r' ->
  Forall2 R l l' -> Forall2 R r r'.
Proof.
  intros H H' F. apply gather_spec in H. apply gather_spec in H'. revert r' H'.
  induction H as [|i x idx r Hx H IH]; intros r' H'; inversion H' as [|? x' ? r'' Hx' H'']; subst; constructor; auto.
  clear -F Hx Hx'. revert i Hx Hx'. induction F; intros [|i] E E'; try discriminate; simpl in *; eauto. congruence.
Qed.

Lemma set_nth_length' {A} (l : list A) : forall i x, length (set_nth l i x) = length l.
Proof. induction l; intros [|i] x; simpl; auto. Qed.
Lemma nth_set_same {A} (l : list A) : forall i x, i < length l -> nth_error (set_nth l i x) i = Some x.
Proof. induction l; intros [|i] x H; simpl in *; try lia; auto. apply IHl. lia. Qed.
Lemma nth_set_other {A} (l : list A) : forall i j x, i <> j -> nth_error (set_nth l i x) j = nth_error l j.
Proof. induction l; intros [|i] [|j] x H; simpl; auto; try lia. Qed.

Lemma scatter_cons {A} i idx x (new l : list A) : scatter (i :: idx) (x :: new) l = scatter idx new (set_nth l i x).
Proof. reflexivity. Qed.
Lemma scatter_length {A} idx : forall (new l : list A), length (scatter idx new l) = length l.
Proof.
  induction idx as [|i idx IH]; intros [|x new] l; auto. rewrite scatter_cons, IH. apply set_nth_length'.
Qed.
Lemma scatter_out {A} idx : forall (new l : list A) j, ~ In j idx -> nth_error (scatter idx new l) j = nth_error l j.
Proof.
  induction idx as [|i idx IH]; intros [|x new] l j H; auto. rewrite scatter_cons, IH; [|simpl in H; tauto].
  apply nth_set_other. simpl in H. tauto.
Qed.
Lemma scatter_in {A} idx : forall (new l : list A) k i x, NoDup idx -> i < length l ->
  nth_error idx k = Some i -> nth_error new k = Some x -> nth_error (scatter idx new l) i = Some x.
Proof.
  induction idx as [|i0 idx IH]; intros [|x0 new] l k i x N L Hi Hx; try (destruct k; discriminate).
  inversion N; subst. rewrite scatter_cons. destruct k as [|k]; simpl in Hi, Hx.
  - inversion Hi; inversion Hx; subst. rewrite scatter_out by auto. apply nth_set_same; auto.
  - eapply IH; eauto. rewrite set_nth_length'. auto.
Qed.
Lemma Forall2_nth {A B} (R : A -> B -> Prop) l : forall r, Forall2 R l r <->
  length l = length r /\ forall i a b, nth_error l i = Some a -> nth_error r i = Some b -> R a b.
Proof.
  induction l as [|a l IH]; intros [|b r]; split.
  - intros _. split; auto. intros [|i]; discriminate.
  - constructor.
  - intros H; inversion H.
  - intros [H _]; discriminate.
  - intros H; inversion H.
  - intros [H _]; discriminate.
  - intros H. inversion H as [|? ? ? ? Hab Hlr]; subst. apply IH in Hlr. destruct Hlr as [L H2]. split; [simpl; auto|].
    intros [|i] a' b' E E'; simpl in *; [inversion E; inversion E'; subst; auto|eauto].
  - intros [L H2]. constructor; [apply (H2 0); auto|]. apply IH. split; [simpl in L; lia|].
    intros i a' b' E E'. apply (H2 (S i)); auto.
Qed.
Lemma nth_of_lt {A} (l : list A) i : i < length l -> exists x, nth_error l i = Some x.
Proof. intros H. destruct (nth_error l i) eqn:E; eauto. apply nth_error_None in E. lia. Qed.

(** A property of all cells after a write. *)
Lemma scatter_Forall {A} (P : A -> Prop) idx : forall new l, Forall P l -> Forall P new -> Forall P (scatter idx new l).
Proof.
  induction idx as [|i idx IH]; intros [|x new] l F G; auto. inversion G; subst. rewrite scatter_cons.
  apply IH; auto. apply Forall_set_nth; auto.
Qed.
Lemma scatter_Forall2 {A B} (R : A -> B -> Prop) idx : forall new new' l l', Forall2 R l l' -> Forall2 R new new' ->
  Forall2 R (scatter idx new l) (scatter idx new' l').
Proof.
  induction idx as [|i idx IH]; intros new new' l l' F G; auto. inversion G; subst; auto. rewrite !scatter_cons.
  apply IH; auto. clear -F H. revert i. induction F; intros [|i]; simpl; constructor; auto.
Qed.
(** A write that respects a reflexive relation cell by cell. *)
Lemma scatter_rel {A} (R : A -> A -> Prop) idx new l old : (forall a, R a a) -> NoDup idx -> Forall (fun i => i < length l) idx ->
  gather idx l = Some old -> Forall2 R new old -> Forall2 R (scatter idx new l) l.
Proof.
  intros Rr N F G H. apply Forall2_nth. rewrite scatter_length. split; auto.
  intros j a b Ha Hb. destruct (in_dec Nat.eq_dec j idx) as [I|I].
  - apply In_nth_error in I. destruct I as (k & Ek). pose proof (gather_nth _ _ _ _ _ G Ek) as E.
    rewrite Hb in E. apply Forall2_nth in H. destruct H as [L H].
    destruct (nth_of_lt new k) as (a' & Ea').
    { rewrite L. apply nth_error_Some. congruence. }
    assert (j < length l) by (apply nth_error_Some; congruence).
    rewrite (scatter_in idx new l k j a' N H0 Ek Ea') in Ha. inversion Ha; subst. eauto.
  - rewrite scatter_out in Ha by auto. rewrite Ha in Hb. inversion Hb; subst. auto.
Qed.

(** * Row lengths *)
Section Rows.
Context (expf : Q -> Q) (m : mode) (fit : list Q -> Q) (ds : list dimn) (mt : imethod).
Context (W : wf_dims ds) (D : discrete_ok mt ds).
Notation row := (fun v : list Q => length v = length ds).
Notation g := (fun x => as_min m (fit x)).

Lemma row_map2 f (a b : list Q) : row a -> row b -> row (map2 f a b : list Q).
Proof. cbv beta. intros A B. rewrite map2_length; congruence. Qed.
Lemma row_scale c (a : list Q) : row a -> row (vscale c a).
Proof. cbv beta. intros A. unfold vscale. rewrite map_length. auto. Qed.
Lemma row_clip (a : list Q) : row a -> row (clip_vec (bnds ds) a).
Proof. cbv beta. intros A. apply clip_length; auto. Qed.
Lemma row_blend f (a : list Q) : forall j b, length a = length b -> length (blend f j a b) = length a.
Proof. induction a as [|x a IH]; intros j [|y b] H; simpl in *; auto; try discriminate. Qed.
Lemma row_drawn u : row (vdrawn u (length ds)).
Proof. unfold vdrawn. rewrite map_length, seq_length. auto. Qed.
Lemma row_feasible v : feasible ds v -> row v.
Proof. apply feasible_length. Qed.

Lemma settle_all_ok alpha vd rows : Forall row rows ->
  exists out, settle_all expf ds mt alpha vd rows = Some out /\ length out = length rows /\ Forall (feasible ds) out.
Proof.
  intros F. unfold settle_all. generalize 0. induction F as [|v rows Hv F IH]; intros k; cbn [traverse].
  - exists []. auto.
  - destruct (settle_total expf ds W alpha mt (vd k) v Hv D) as (w & E & Fw). rewrite E. cbn [bind].
    destruct (IH (S k)) as (out & E' & L & Fo). rewrite E'. exists (w :: out). simpl. auto.
Qed.
Lemma settle_all_some alpha vd rows out : Forall row rows -> settle_all expf ds mt alpha vd rows = Some out ->
  length out = length rows /\ Forall (feasible ds) out.
Proof. intros F E. destruct (settle_all_ok alpha vd rows F) as (o & E' & H). rewrite E in E'. inversion E'; subst. auto. Qed.

Lemma scores_ok rows : Forall (feasible ds) rows -> scores m fit ds rows = map g rows.
Proof. apply map_score. auto. Qed.

(** * One sub-population step *)
Record pop_ok (n : nat) (P : list (list Q)) (V : list Q) (b : list Q * Q) (L : list (list Q)) : Prop := PopOk {
  po_n : length P = n;
  po_feas : Forall (feasible ds) P;
  po_val : Forall2 (fun x v => (v == g x)%Q) P V;
  po_seen : incl P L;
  po_min : min_of g L (fst b) (snd b);
  po_att : exists v, In v V /\ (v == snd b)%Q;
  po_log : Forall (feasible ds) L }.

(** What a variant does to the members [p], [v] of its sub-population: [off] are the points it
    evaluated. *)
Record variant_ok (p : list (list Q)) (v : list Q) (off p' : list (list Q)) (v' : list Q) : Prop := VarOk {
  va_len : length p' = length p;
  va_val : Forall2 (fun x y => (y == g x)%Q) p' v';
  va_from : incl p' (p ++ off);
  va_le : Forall2 Qle v' v;
  va_off : forall o, In o off -> exists y, In y v' /\ (y <= g o)%Q;
  va_feas : Forall (feasible ds) off }.

Lemma take_best_spec b p' v' b' : take_best b p' v' = Some b' -> Forall2 (fun x y => (y == g x)%Q) p' v' ->
  (forall y, In y v' -> (snd b' <= y)%Q) /\ (snd b' <= snd b)%Q /\
  (b' = b \/ (In (fst b') p' /\ In (snd b') v' /\ (snd b' == g (fst b'))%Q)).
Proof.
  intros H F. unfold take_best in H. apply bind_Some in H. destruct H as ([k y] & E & H).
  apply argmin_spec in E. destruct E as (E1 & E2 & _). destruct (Qltb y (snd b)) eqn:Q1.
  - apply bind_Some in H. destruct H as (x & Ex & H). inversion H; subst. cbn [fst snd].
    apply Qltb_lt in Q1. split; [auto|]. split; [lra|]. right.
    split; [eapply nth_error_In; eauto|]. split; [eapply nth_error_In; eauto|].
    apply Forall2_nth in F. destruct F as [_ F]. eapply F; eauto.
  - inversion H; subst. split; [|split; [apply Qle_refl|auto]].
    intros z Hz. apply Qltb_false in Q1. specialize (E2 z Hz). lra.
Qed.

Lemma group_step n idx P V b L p v off p' v' b' : pop_ok n P V b L ->
  NoDup idx -> Forall (fun i => i < n) idx -> gather idx P = Some p -> gather idx V = Some v ->
  variant_ok p v off p' v' -> take_best b p' v' = Some b' ->
  pop_ok n (scatter idx p' P) (scatter idx v' V) b' (L ++ off) /\ Forall2 Qle (scatter idx v' V) V.
Proof.
  intros [A1 A2 A3 A4 A5 A6 A7] N F GP GV [B1 B2 B3 B4 B5 B6] TB.
  assert (LV : length V = n) by (rewrite <- A1; symmetry; eapply Forall2_length; eauto).
  assert (Lv : length v' = length v) by (eapply Forall2_length; eauto).
  pose proof (gather_length _ _ _ GP) as Lp. pose proof (gather_length _ _ _ GV) as Lv0.
  assert (FP : Forall (fun i => i < length P) idx) by (rewrite A1; auto).
  assert (FV : Forall (fun i => i < length V) idx) by (rewrite LV; auto).
  destruct (take_best_spec _ _ _ _ TB B2) as (T1 & T2 & T3).
  assert (Fp' : Forall (feasible ds) p').
  { apply Forall_forall. intros x Hx. apply B3 in Hx. apply in_app_iff in Hx. destruct Hx as [Hx|Hx].
    - eapply Forall_forall in A2; eauto. eapply gather_In; eauto.
    - rewrite Forall_forall in B6. auto. }
  assert (SLE : Forall2 Qle (scatter idx v' V) V).
  { eapply scatter_rel; eauto. intros; apply Qle_refl. }
  split; auto. split.
  - rewrite scatter_length. auto.
  - apply scatter_Forall; auto.
  - apply scatter_Forall2; auto.
  - assert (X : Forall (fun x => In x (L ++ off)) (scatter idx p' P)).
    { apply scatter_Forall; apply Forall_forall.
      - intros x Hx. apply in_app_iff. left. auto.
      - intros x Hx. apply B3 in Hx. apply in_app_iff in Hx. apply in_app_iff. destruct Hx as [Hx|Hx]; auto.
        left. apply A4. eapply gather_In; eauto. }
    rewrite Forall_forall in X. exact X.
  - destruct A5 as (M1 & M2 & M3). split; [|split].
    + apply in_app_iff. destruct T3 as [->|(T3 & _)]; auto. apply B3 in T3. apply in_app_iff in T3.
      destruct T3 as [T3|T3]; auto. left. apply A4. eapply gather_In; eauto.
    + destruct T3 as [->|(_ & _ & T3)]; auto.
    + intros z Hz. apply in_app_iff in Hz. destruct Hz as [Hz|Hz].
      * specialize (M3 z Hz). lra.
      * destruct (B5 z Hz) as (y & Hy & Hle). specialize (T1 y Hy). lra.
  - destruct T3 as [->|(_ & T3 & _)].
    + destruct A6 as (w & Hw & Ew). apply In_nth_error in Hw. destruct Hw as (j & Ej).
      destruct (in_dec Nat.eq_dec j idx) as [I|I].
      * apply In_nth_error in I. destruct I as (k & Ek). pose proof (gather_nth _ _ _ _ _ GV Ek) as E.
        destruct (nth_of_lt v' k) as (w' & Ew').
        { rewrite Lv, Lv0. apply nth_error_Some. congruence. }
        exists w'. split.
        { assert (J : j < length V) by (apply nth_error_Some; congruence).
          eapply nth_error_In. eapply scatter_in; eauto. }
        { apply Forall2_nth in B4. destruct B4 as [_ B4]. rewrite Ej in E. specialize (B4 _ _ _ Ew' E).
          specialize (T1 w' (nth_error_In _ _ Ew')). lra. }
      * exists w. split; auto. eapply nth_error_In. rewrite scatter_out; eauto.
    + exists (snd b'). split; [|reflexivity]. apply In_nth_error in T3. destruct T3 as (k & Ek).
      destruct (nth_of_lt idx k) as (i & Ei).
      { rewrite <- Lv0, <- Lv. apply nth_error_Some. congruence. }
      eapply nth_error_In. eapply scatter_in; eauto.
      rewrite Forall_forall in FV. apply FV. eapply nth_error_In; eauto.
  - apply Forall_app. auto.
Qed.

(** * The selections of the three variants *)
Lemma jade_select_ok p : forall v off, length off = length p -> Forall2 (fun x y => (y == g x)%Q) p v -> Forall (feasible ds) off ->
  variant_ok p v off (pick_rows (jade_wins v (map g off)) off p) (jade_vals v (map g off)).
Proof.
  induction p as [|x p IH]; intros v off L F Fo.
  - destruct off; [|discriminate]. inversion F; subst. split; simpl; auto; try (constructor; fail); intros z [].
  - destruct off as [|o off]; [discriminate|]. inversion F as [|? y ? v0 Hy Fv]; subst. inversion Fo as [|? ? Ho Fo']; subst.
    destruct (IH v0 off) as [I1 I2 I3 I4 I5 I6]; auto.
    assert (E1 : jade_vals (y :: v0) (map g (o :: off)) = qmin2 y (g o) :: jade_vals v0 (map g off)) by reflexivity.
    assert (E2 : pick_rows (jade_wins (y :: v0) (map g (o :: off))) (o :: off) (x :: p) =
       (if Qle_bool (g o) (qmin2 y (g o)) then o else x) :: pick_rows (jade_wins v0 (map g off)) off p) by reflexivity.
    rewrite E1, E2. clear E1 E2. split.
    + simpl. auto.
    + constructor; auto. unfold qmin2. destruct (Qle_bool y (g o)) eqn:Q1; destruct (Qle_bool (g o) _) eqn:Q2; qprop; try lra.
    + intros z [<-|Hz].
      * apply in_app_iff. destruct (Qle_bool _ _); simpl; auto.
      * apply I3 in Hz. apply in_app_iff in Hz. apply in_app_iff. simpl. tauto.
    + constructor; auto. unfold qmin2. destruct (Qle_bool y (g o)) eqn:Q1; qprop; lra.
    + intros z [<-|Hz].
      * exists (qmin2 y (g o)). split; [left; auto|]. unfold qmin2. destruct (Qle_bool y (g o)) eqn:Q1; qprop; lra.
      * destruct (I5 z Hz) as (w & Hw & Hle). exists w. split; [right; auto|auto].
    + auto.
Qed.

Lemma code_pick_spec off i x y u f : 3 * i + 3 <= length off -> code_pick off (map g off) i (x, y) = Some (u, f) -> (y == g x)%Q ->
  (f == g u)%Q /\ (f <= y)%Q /\ (u = x \/ In u off) /\ (forall k o, k < 3 -> nth_error off (3 * i + k) = Some o -> (f <= g o)%Q).
Proof.
  intros L H Hy. unfold code_pick in H. apply bind_Some in H. destruct H as ([k b] & E & H).
  apply bind_Some in H. destruct H as (u' & Eu & H). apply bind_Some in H. destruct H as (f' & Ef & H).
  apply argmin_spec in E. destruct E as (E1 & E2 & _).
  rewrite nth_error_map, Eu in Ef. simpl in Ef. inversion Ef; subst f'. clear Ef.
  assert (K : k < 3).
  { assert (k < length (firstn 3 (skipn (3 * i) (map g off)))) by (apply nth_error_Some; congruence).
    rewrite firstn_length in H0. lia. }
  assert (N : forall j, j < 3 -> nth_error (firstn 3 (skipn (3 * i) (map g off))) j = nth_error (map g off) (3 * i + j)).
  { intros j Hj. rewrite ES_Proofs.nth_error_firstn, ES_Proofs.nth_error_skipn.
    destruct (Nat.ltb_spec j 3); auto. lia. }
  rewrite N in E1 by auto. rewrite nth_error_map, Eu in E1. simpl in E1. inversion E1; subst b. clear E1.
  assert (E3 : forall k o, k < 3 -> nth_error off (3 * i + k) = Some o -> (g u' <= g o)%Q).
  { intros j o Hj Eo. apply E2. eapply nth_error_In. rewrite N by exact Hj. rewrite nth_error_map, Eo. reflexivity. }
  cbn [snd] in H. destruct (Qle_bool (g u') y) eqn:Q1; inversion H; subst; qprop.
  - split; [reflexivity|]. split; auto. split; [right; eapply nth_error_In; eauto|auto].
  - split; auto. split; [apply Qle_refl|]. split; auto. intros j o Hj Eo. specialize (E3 j o Hj Eo). cbv beta in *. lra.
Qed.

Lemma code_traverse_ok p : forall v off pre pv, length off = 3 * length p + 3 * pre -> Forall2 (fun x y => (y == g x)%Q) p v ->
  traverse (code_pick off (map g off)) pre (combine p v) = Some pv ->
  length (map fst pv) = length p /\ Forall2 (fun x y => (y == g x)%Q) (map fst pv) (map snd pv) /\
  incl (map fst pv) (p ++ off) /\ Forall2 Qle (map snd pv) v /\
  (forall k o, 3 * pre <= k -> nth_error off k = Some o -> exists y, In y (map snd pv) /\ (y <= g o)%Q).
Proof.
  induction p as [|x p IH]; intros v off pre pv L F T.
  - inversion F; subst. simpl in T. inversion T; subst. simpl. split; auto. split; [constructor|].
    split; [intros z []|]. split; [constructor|]. intros k o Hk Ho. assert (k < length off) by (apply nth_error_Some; congruence).
    simpl in L. lia.
  - inversion F as [|? y ? v0 Hy Fv]; subst. cbn [combine traverse] in T.
    apply bind_Some in T. destruct T as ([u f] & E & T). apply bind_Some in T. destruct T as (pv0 & T & Q0). inversion Q0; subst.
    destruct (code_pick_spec off pre x y u f) as (C1 & C2 & C3 & C4); auto; [simpl in L; lia|].
    destruct (IH v0 off (S pre) pv0) as (I1 & I2 & I3 & I4 & I5); auto; [simpl in L |- *; lia|].
    simpl. split; [auto|]. split; [constructor; auto|]. split; [|split; [constructor; auto|]].
    + intros z [<-|Hz].
      * destruct C3 as [->|C3]; [left; auto|right; apply in_app_iff; auto].
      * apply I3 in Hz. right. auto.
    + intros k o Hk Ho. destruct (Nat.lt_ge_cases k (3 * S pre)) as [Hlt|Hge].
      * exists f. split; [auto|]. apply (C4 (k - 3 * pre)); [lia|]. replace (3 * pre + (k - 3 * pre)) with k by lia. auto.
      * destruct (I5 k o Hge Ho) as (w & Hw & Hle). exists w. auto.
Qed.
Lemma code_select_ok p v off pv : length off = 3 * length p -> Forall2 (fun x y => (y == g x)%Q) p v -> Forall (feasible ds) off ->
  traverse (code_pick off (map g off)) 0 (combine p v) = Some pv -> variant_ok p v off (map fst pv) (map snd pv).
Proof.
  intros L F Fo T. destruct (code_traverse_ok p v off 0 pv) as (I1 & I2 & I3 & I4 & I5); auto; [lia|].
  split; auto. intros o Ho. apply In_nth_error in Ho. destruct Ho as (k & Ek). apply (I5 k); auto. lia.
Qed.

Lemma ep_select_ok p : forall v off pars s s' pv, length off = length p -> length pars = length p ->
  Forall2 (fun x y => (y == g x)%Q) p v -> Forall (feasible ds) off ->
  ep_select s (combine (combine (combine p v) (combine off (map g off))) pars) = (s', pv) ->
  variant_ok p v off (map fst pv) (map snd pv).
Proof.
  induction p as [|x p IH]; intros v off pars s s' pv L L' F Fo E.
  - destruct off; [|discriminate]. inversion F; subst. simpl in E. inversion E; subst.
    split; simpl; auto; try (constructor; fail); intros z [].
  - destruct off as [|o off]; [discriminate|]. destruct pars as [|[q rr] pars]; [discriminate|].
    inversion F as [|? y ? v0 Hy Fv]; subst. inversion Fo as [|? ? Ho Fo']; subst.
    cbn [combine map ep_select] in E. unfold ep_step in E. cbn [fst snd] in E.
    destruct (Qltb (g o) y) eqn:Q1.
    + destruct (ep_select _ _) as [s2 out] eqn:Er in E. inversion E; subst. clear E.
      destruct (IH v0 off pars _ _ _ ltac:(simpl in L; lia) ltac:(simpl in L'; lia) Fv Fo' Er) as [I1 I2 I3 I4 I5 I6].
      qprop. split; cbn [map fst snd]; auto.
      * simpl. auto.
      * constructor; auto. reflexivity.
      * intros z [<-|Hz]; [apply in_app_iff; simpl; auto|]. apply I3 in Hz. apply in_app_iff in Hz. apply in_app_iff. simpl. tauto.
      * constructor; auto. lra.
      * intros z [<-|Hz]; [exists (g o); split; [left; auto|apply Qle_refl]|].
        destruct (I5 z Hz) as (w & Hw & Hle). exists w. split; [right; auto|auto].
    + destruct (ep_select _ _) as [s2 out] eqn:Er in E. inversion E; subst. clear E.
      destruct (IH v0 off pars _ _ _ ltac:(simpl in L; lia) ltac:(simpl in L'; lia) Fv Fo' Er) as [I1 I2 I3 I4 I5 I6].
      qprop. split; cbn [map fst snd]; auto.
      * simpl. auto.
      * intros z [<-|Hz]; [apply in_app_iff; simpl; auto|]. apply I3 in Hz. apply in_app_iff in Hz. apply in_app_iff. simpl. tauto.
      * constructor; auto. apply Qle_refl.
      * intros z [<-|Hz]; [exists y; split; [left; auto|auto]|].
        destruct (I5 z Hz) as (w & Hw & Hle). exists w. split; [right; auto|auto].
Qed.

(** * Row lengths of the trials *)
Lemma nth_row pop i (x : list Q) : Forall row pop -> nth_error pop i = Some x -> row x.
Proof. intros F E. rewrite Forall_forall in F. apply F. eapply nth_error_In; eauto. Qed.
Ltac rows := cbv beta;
  repeat match goal with
  | |- length (map2 ?f ?a ?b) = _ => apply (row_map2 f a b)
  | |- length (vscale ?c ?a) = _ => apply (row_scale c a)
  | |- length (clip_vec (bnds ds) ?a) = _ => apply (row_clip a)
  | |- length (vdrawn ?u _) = _ => apply (row_drawn u)
  | F : Forall _ ?p, E : nth_error ?p _ = Some ?x |- length ?x = _ => exact (nth_row p _ x F E)
  end; eauto 3.

Lemma jade_trials_rows d arch pop vals raw : Forall row pop -> Forall row arch -> jade_trials ds d arch pop vals = Some raw ->
  length raw = length pop /\ Forall row raw.
Proof.
  intros F Fa H. unfold jade_trials in H. apply bind_Some in H. destruct H as ([r1 r2] & _ & H).
  split; [apply (traverse_spec _ _ _ _ H)|].
  eapply (traverse_Forall _ row row); [| |exact H]; auto.
  intros i x u Hx E. unfold jade_row in E.
  apply bind_Some in E. destruct E as (pb & _ & E). apply bind_Some in E. destruct E as (b & Eb & E).
  apply bind_Some in E. destruct E as (i1 & _ & E). apply bind_Some in E. destruct E as (a & Ea & E).
  apply bind_Some in E. destruct E as (i2 & _ & E). apply bind_Some in E. destruct E as (c & Ec & E).
  inversion E; subst. clear E. cbv beta in *. rewrite row_blend; auto.
  rewrite Hx. symmetry. unfold vadd, vsub. rows. eapply nth_row; [|exact Ec]. apply Forall_app; auto.
Qed.

Lemma bind_pair {A B C} (x : option (A * B)) (f : A -> B -> option C) c :
  bind x (fun '(a, b) => f a b) = Some c -> exists a b, x = Some (a, b) /\ f a b = Some c.
Proof. intros H. apply bind_Some in H. destruct H as ([a b] & E & H). eauto. Qed.
Ltac bs H := apply bind_Some in H; destruct H as (? & ? & H).

Lemma generator_rows pop i gd us : Forall row pop -> generator pop ds i gd = Some us -> length us = 3 /\ Forall row us.
Proof.
  intros F H. unfold generator in H.
  apply bind_Some in H. destruct H as (x & Ex & H).
  apply bind_Some in H. destruct H as ([[a1 a2] a3] & Ea & H).
  apply bind_Some in Ea. destruct Ea as (ix & _ & Ea).
  destruct ix as [|i1 [|i2 [|i3 [|]]]]; try discriminate.
  apply bind_Some in Ea. destruct Ea as (a1' & Ea1 & Ea). apply bind_Some in Ea. destruct Ea as (a2' & Ea2 & Ea).
  apply bind_Some in Ea. destruct Ea as (a3' & Ea3 & Ea). inversion Ea; subst. clear Ea.
  apply bind_Some in H. destruct H as (c1 & Ec1 & H). apply bind_Some in H. destruct H as (c2 & Ec2 & H).
  apply bind_Some in H. destruct H as (c3 & Ec3 & H).
  apply bind_Some in H. destruct H as ([[[[b1 b2] b3] b4] b5] & Eb & H).
  apply bind_Some in Eb. destruct Eb as (jx & _ & Eb).
  destruct jx as [|j1 [|j2 [|j3 [|j4 [|j5 [|]]]]]]; try discriminate.
  apply bind_Some in Eb. destruct Eb as (b1' & Eb1 & Eb). apply bind_Some in Eb. destruct Eb as (b2' & Eb2 & Eb).
  apply bind_Some in Eb. destruct Eb as (b3' & Eb3 & Eb). apply bind_Some in Eb. destruct Eb as (b4' & Eb4 & Eb).
  apply bind_Some in Eb. destruct Eb as (b5' & Eb5 & Eb). inversion Eb; subst. clear Eb.
  inversion H; subst. clear H. split; [reflexivity|].
  pose proof (nth_row _ _ _ F Ex) as Rx. cbv beta in *. unfold vadd, vsub.
  repeat constructor.
  - rewrite row_blend; auto. rewrite Rx. symmetry. rows.
  - rows.
  - rewrite row_blend; auto. rewrite Rx. symmetry. rows.
Qed.
Lemma code_trials_rows d pop raw : Forall row pop -> code_trials ds d pop = Some raw ->
  length raw = 3 * length pop /\ Forall row raw.
Proof.
  intros F H. unfold code_trials in H. apply bind_Some in H. destruct H as (l & T & H). inversion H; subst. clear H.
  destruct (traverse_spec _ _ _ _ T) as [L _].
  assert (X : Forall (fun us => length us = 3 /\ Forall row us) l).
  { eapply (traverse_Forall _ (fun _ => True)); [| |exact T]; [|apply Forall_forall; auto].
    intros k a b _ E. cbv beta in E. exact (generator_rows _ _ _ _ F E). }
  rewrite <- L. clear -X. induction X as [|us l [A B] X [I1 I2]]; simpl; [auto|].
  rewrite app_length, A, I1. split; [lia|]. apply Forall_app; auto.
Qed.
Lemma ep_trial_row d bm pop q i x u : row bm -> Forall row pop -> row x -> ep_trial ds d bm pop q i x = Some u -> row u.
Proof.
  intros Rb F Rx H. unfold ep_trial in H.
  apply bind_Some in H. destruct H as (w & E & H). inversion H; subst. clear H.
  assert (Rw : row w).
  { cbv beta in *. unfold vadd, vsub, vmul in E.
    assert (RR : forall k p, (let* j := nth_error (p_ind d (length pop) i) k in nth_error pop j) = Some p -> length p = length ds).
    { intros k p Hp. apply bind_Some in Hp. destruct Hp as (j & _ & Hp). eapply nth_row; eauto. }
    destruct (q_str q) as [|[|[|]]].
    - apply bind_Some in E. destruct E as (p3 & H3 & E). apply bind_Some in E. destruct E as (p4 & H4 & E).
      apply bind_Some in E. destruct E as (p5 & H5 & E). apply bind_Some in E. destruct E as (p6 & H6 & E).
      inversion E; subst. rewrite row_blend; auto. rewrite Rx. symmetry. rows.
    - apply bind_Some in E. destruct E as (p3 & H3 & E). apply bind_Some in E. destruct E as (p4 & H4 & E).
      apply bind_Some in E. destruct E as (p5 & H5 & E).
      inversion E; subst. rewrite row_blend; auto. rewrite Rx. symmetry. rows.
    - apply bind_Some in E. destruct E as (p3 & H3 & E). apply bind_Some in E. destruct E as (p4 & H4 & E).
      apply bind_Some in E. destruct E as (p5 & H5 & E).
      inversion E; subst. rows.
    - inversion E; subst. rewrite map_length. auto. }
  destruct (_ || _); auto. cbv beta. unfold vadd, vsub, vmul. rows; rewrite map_length; auto.
Qed.
Lemma ep_trials_rows d bm pop pars raw : row bm -> Forall row pop -> length pars = length pop ->
  traverse (fun i (xq : list Q * (para * nat)) => ep_trial ds d bm pop (fst (snd xq)) i (fst xq)) 0 (combine pop pars) = Some raw ->
  length raw = length pop /\ Forall row raw.
Proof.
  intros Rb F L T. split.
  - destruct (traverse_spec _ _ _ _ T) as [L' _]. rewrite L', combine_length. lia.
  - eapply (traverse_Forall _ (fun xq : list Q * (para * nat) => row (fst xq))); [| |exact T].
    + intros k [x q] u Hx E. eapply ep_trial_row; [exact Rb|exact F|exact Hx|exact E].
    + apply Forall_forall. intros [x q] Hx. apply in_combine_l in Hx. rewrite Forall_forall in F. auto.
Qed.
End Rows.
