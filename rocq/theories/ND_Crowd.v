(** Proofs about the crowding distance. *)
From Coq Require Import List Arith ZArith QArith Bool Lia Lqa Permutation Sorted.
From Verif Require Import Base BaseFacts Space_Model Opt_Model Opt_Facts ND_Model ND_Spec ND_Proofs ND_Select.
Import ListNotations.
Open Scope nat_scope.

Notation centry := (list Q * nat)%type.

Lemma crowd_mid_pinf i norm : forall crowd dist j, dist j = PInf -> crowd_mid i norm crowd dist j = PInf.
Proof.
  induction crowd as [|p [|c [|x r]] IH]; intros dist j H; try exact H.
  change (crowd_mid i norm (p :: c :: x :: r) dist) with
    (crowd_mid i norm (c :: x :: r) (upd dist (snd c) (ext_add (dist (snd c)) ((coord i (fst x) - coord i (fst p)) / norm)%Q))).
  apply IH. unfold upd. destruct (Nat.eqb_spec j (snd c)); auto. subst. rewrite H. auto.
Qed.

Lemma crowd_mid_fin i norm : forall crowd dist j, dist j <> PInf -> crowd_mid i norm crowd dist j <> PInf.
Proof.
  induction crowd as [|p [|c [|x r]] IH]; intros dist j H; try exact H.
  change (crowd_mid i norm (p :: c :: x :: r) dist) with
    (crowd_mid i norm (c :: x :: r) (upd dist (snd c) (ext_add (dist (snd c)) ((coord i (fst x) - coord i (fst p)) / norm)%Q))).
  apply IH. unfold upd. destruct (Nat.eqb_spec j (snd c)); auto. subst. destruct (dist (snd c)); simpl; congruence.
Qed.

Lemma crowd_obj_perm nobj i crowd dist : Permutation (fst (crowd_obj nobj i crowd dist)) crowd.
Proof.
  unfold crowd_obj. pose proof (sort_asc_perm (fun e : centry => coord i (fst e)) crowd) as P.
  destruct (sort_asc _ crowd) as [|a r]; [exact P|]. destruct (Qeq_bool _ _); exact P.
Qed.

Lemma crowd_obj_pinf nobj i crowd dist j : dist j = PInf -> snd (crowd_obj nobj i crowd dist) j = PInf.
Proof.
  intro H. unfold crowd_obj. destruct (sort_asc _ crowd) as [|a r]; [exact H|]. set (z := last (a :: r) ([], 0)).
  assert (K : upd (upd dist (snd a) PInf) (snd z) PInf j = PInf).
  { unfold upd. destruct (j =? snd z); auto. destruct (j =? snd a); auto. }
  destruct (Qeq_bool _ _); [exact K|]. cbn [snd]. apply crowd_mid_pinf. exact K.
Qed.

Lemma sort_asc_last {A} (key : A -> Q) l d x : In x l -> (key x <= key (last (sort_asc key l) d))%Q /\ In (last (sort_asc key l) d) l.
Proof.
  intro Hx. pose proof (sort_asc_perm key l) as P. pose proof (sort_asc_sorted key l) as SS.
  apply (Permutation_in _ (Permutation_sym P)) in Hx.
  destruct (sort_asc key l) as [|z r _] using rev_ind; [destruct Hx|]. rewrite last_last. split.
  - apply in_app_or in Hx. destruct Hx as [Hx|[<-|[]]]; [|lra].
    clear P. induction r as [|y r IH]; [destruct Hx|]. simpl in SS. inversion SS; subst. destruct Hx as [<-|Hx]; auto.
    rewrite Forall_forall in H2. apply H2. apply in_or_app. simpl. auto.
  - apply (Permutation_in _ P). apply in_or_app. simpl. auto.
Qed.

Lemma crowd_obj_infs nobj i crowd dist : crowd <> [] ->
  exists a z, In a crowd /\ In z crowd /\
    (forall e, In e crowd -> (coord i (fst e) <= coord i (fst z))%Q) /\
    snd (crowd_obj nobj i crowd dist) (snd z) = PInf /\
    forall j, snd (crowd_obj nobj i crowd dist) j = PInf -> dist j = PInf \/ j = snd a \/ j = snd z.
Proof.
  intro N. unfold crowd_obj. pose proof (sort_asc_perm (fun e : centry => coord i (fst e)) crowd) as P.
  pose proof (sort_asc_last (fun e : centry => coord i (fst e)) crowd ([], 0)) as LA.
  destruct (sort_asc _ crowd) as [|a r] eqn:E.
  { apply Permutation_nil in P. congruence. }
  set (z := last (a :: r) ([], 0)) in *.
  assert (Ha : In a crowd) by (apply (Permutation_in _ P); simpl; auto).
  assert (Hz : In z crowd) by (apply (LA a Ha)).
  exists a, z. split; [auto|split; [auto|split; [intros e He; apply LA; auto|]]].
  assert (K : upd (upd dist (snd a) PInf) (snd z) PInf (snd z) = PInf) by (unfold upd; rewrite Nat.eqb_refl; auto).
  assert (K2 : forall j, upd (upd dist (snd a) PInf) (snd z) PInf j = PInf -> dist j = PInf \/ j = snd a \/ j = snd z).
  { intro j. unfold upd. destruct (Nat.eqb_spec j (snd z)); auto. destruct (Nat.eqb_spec j (snd a)); auto. }
  destruct (Qeq_bool _ _); cbn [snd]; split; auto.
  - apply crowd_mid_pinf. exact K.
  - intros j Hj. apply K2. destruct (upd (upd dist (snd a) PInf) (snd z) PInf j) eqn:Ej; auto. exfalso.
    eapply crowd_mid_fin; [|exact Hj]. rewrite Ej. discriminate.
Qed.

Lemma crowd_objs_infs nobj : forall is_ crowd dist, crowd <> [] ->
  exists L, length L <= 2 * length is_ /\
    (forall j, crowd_objs nobj is_ crowd dist j = PInf -> dist j = PInf \/ In j L) /\
    (forall j, dist j = PInf -> crowd_objs nobj is_ crowd dist j = PInf) /\
    (forall i, In i is_ -> exists z, In z crowd /\ (forall e, In e crowd -> (coord i (fst e) <= coord i (fst z))%Q) /\
       crowd_objs nobj is_ crowd dist (snd z) = PInf).
Proof.
  induction is_ as [|i is_ IH]; intros crowd dist N.
  - exists []. simpl. repeat split; auto. intros i [].
  - simpl. pose proof (crowd_obj_perm nobj i crowd dist) as P. pose proof (crowd_obj_pinf nobj i crowd dist) as PI.
    destruct (crowd_obj_infs nobj i crowd dist N) as (a & z & Ha & Hz & Mx & Iz & Ij).
    destruct (crowd_obj nobj i crowd dist) as [crowd' dist']. simpl in P, PI, Iz, Ij.
    destruct (IH crowd' dist') as (L & LL & L1 & L2 & L3).
    { intros ->. apply Permutation_nil in P. congruence. }
    exists (snd a :: snd z :: L). repeat split.
    + simpl. lia.
    + intros j Hj. apply L1 in Hj. destruct Hj as [Hj|Hj]; [|simpl; auto]. apply Ij in Hj. simpl. destruct Hj as [|[|]]; auto.
    + intros j Hj. apply L2. auto.
    + intros i' [<-|Hi].
      * exists z. split; [auto|split; [auto|]]. apply L2. auto.
      * destruct (L3 i' Hi) as (z' & H1 & H2 & H3). exists z'. split; [|split; [|auto]].
        -- apply (Permutation_in _ P). auto.
        -- intros e He. apply H2. apply (Permutation_in _ (Permutation_sym P)). auto.
Qed.

Lemma combine_seq_In {A} (l : list A) j w : In (w, j) (combine l (seq 0 (length l))) -> nth_error l j = Some w.
Proof.
  assert (G : forall l s, In (w, j) (combine l (seq s (length l))) -> s <= j /\ nth_error l (j - s) = Some w).
  { clear l. induction l as [|a l IH]; intros s H; simpl in H; [destruct H|]. destruct H as [H|H].
    - inversion H; subst. rewrite Nat.sub_diag. split; auto.
    - apply IH in H. destruct H as [H1 H2]. split; [lia|]. replace (j - s) with (S (j - S s)) by lia. auto. }
  intro H. apply G in H. rewrite Nat.sub_0_r in H. tauto.
Qed.
Lemma combine_seq_In2 {A} (l : list A) j w : nth_error l j = Some w -> In (w, j) (combine l (seq 0 (length l))).
Proof.
  assert (G : forall l j s, nth_error l j = Some w -> In (w, s + j) (combine l (seq s (length l)))).
  { clear l j. induction l as [|a l IH]; intros [|j] s H; simpl in *; try discriminate.
    - inversion H; subst. rewrite Nat.add_0_r. auto.
    - right. replace (s + S j) with (S s + j) by lia. auto. }
  apply (G l j 0).
Qed.
Lemma combine_seq_In' {A} (l : list A) j w : In (j, w) (combine (seq 0 (length l)) l) <-> nth_error l j = Some w.
Proof.
  assert (G : forall l s, In (j, w) (combine (seq s (length l)) l) <-> s <= j /\ nth_error l (j - s) = Some w).
  { clear l. induction l as [|a l IH]; intros s; simpl.
    - split; [tauto|]. intros [_ H]. destruct (j - s); discriminate.
    - rewrite IH. split.
      + intros [H|[H1 H2]].
        * inversion H; subst. rewrite Nat.sub_diag. split; auto.
        * split; [lia|]. replace (j - s) with (S (j - S s)) by lia. auto.
      + intros [H1 H2]. destruct (Nat.eq_dec j s) as [->|Nj].
        * rewrite Nat.sub_diag in H2. simpl in H2. left. congruence.
        * right. split; [lia|]. replace (j - s) with (S (j - S s)) in H2 by lia. auto. }
  rewrite G, Nat.sub_0_r. split; [tauto|]. intro. split; [lia|auto].
Qed.

(** The first elements of a descending sort hold everything above a value held by few. *)
Lemma sorted_prefix {A} (key : A -> ext) l x k (L : list A) : StronglySorted (fun a b => ext_le (key b) (key a)) l -> NoDup l ->
  (forall y, In y l -> key y = PInf -> In y L) -> length L <= k -> In x l -> key x = PInf -> In x (firstn k l).
Proof.
  intros SS ND HL Lk Hx Kx. rewrite <- (firstn_skipn k l) in Hx. apply in_app_or in Hx. destruct Hx as [|Hx]; auto. exfalso.
  assert (Hl : length (firstn k l) = k).
  { rewrite firstn_length. destruct (le_lt_dec k (length l)); [lia|]. rewrite skipn_all2 in Hx by lia. destruct Hx. }
  assert (P : forall y, In y (firstn k l) -> key y = PInf).
  { intros y Hy. pose proof (sorted_split _ l k SS y x Hy Hx) as Q0. unfold ext_le in Q0. cbv beta in Q0. rewrite Kx in Q0. destruct (key y); auto. discriminate. }
  assert (I : incl (x :: firstn k l) L).
  { intros y [<-|Hy]; apply HL; auto.
    - apply in_skipn in Hx. auto.
    - apply in_firstn in Hy. auto. }
  apply NoDup_incl_length in I; [simpl in I; lia|]. constructor; [|apply NoDup_firstn; auto].
  intro K. rewrite <- (firstn_skipn k l) in ND. apply NoDup_app_iff in ND. destruct ND as (_ & _ & D). eapply D; eauto.
Qed.

Lemma crowd_keeps_top ws m front l k f : Forall (fun i => length (nth i ws []) = m) front -> NoDup front ->
  crowd_pick ws front = Some l -> 2 * m <= k -> f < m -> exists i, tops ws front f i /\ In i (firstn k l).
Proof.
  intros Fm ND E Hk Hf. unfold crowd_pick in E.
  destruct (assignCrowdingDist _) as [d|] eqn:Ed; [|discriminate].
  assert (El : l = map snd (stable_ext_desc (fun e => d (fst e)) (combine (seq 0 (length front)) front))) by congruence.
  clear E. destruct front as [|f0 fr]; [discriminate|]. remember (f0 :: fr) as front eqn:Ef.
  assert (Ed' : d = crowd_objs m (seq 0 m) (combine (map (fun i => nth i ws []) front) (seq 0 (length front))) (fun _ => Fin 0)).
  { unfold assignCrowdingDist in Ed. destruct (map (fun i => nth i ws []) front) as [|w r] eqn:Ev.
    - rewrite Ef in Ev. discriminate.
    - assert (Lw : length w = m) by (rewrite Ef in Ev, Fm; simpl in Ev; inversion Ev; inversion Fm; subst; auto).
      rewrite <- Ev in *. rewrite map_length, Lw in Ed. congruence. }
  set (vs := map (fun i => nth i ws []) front) in *.
  assert (Lv : length vs = length front) by (unfold vs; apply map_length).
  destruct (crowd_objs_infs m (seq 0 m) (combine vs (seq 0 (length front))) (fun _ => Fin 0)) as (L & LL & L1 & _ & L3).
  { rewrite <- Lv. unfold vs. rewrite Ef. simpl. discriminate. }
  rewrite seq_length in LL. rewrite <- Ed' in *.
  destruct (L3 f) as ([w j] & Hz & Mx & Iz); [apply in_seq; lia|]. simpl in Iz, Mx.
  rewrite <- Lv in Hz. apply combine_seq_In in Hz.
  assert (Hj : exists i, nth_error front j = Some i /\ w = nth i ws []).
  { unfold vs in Hz. rewrite nth_error_map in Hz. destruct (nth_error front j) as [i|]; [|discriminate]. simpl in Hz. exists i. split; congruence. }
  destruct Hj as (i & Hj & ->). exists i. split.
  - split; [eapply nth_error_In; eauto|]. intros i' Hi'. apply In_nth_error in Hi'. destruct Hi' as (j' & Hj').
    apply (Mx (nth i' ws [], j')). rewrite <- Lv. apply combine_seq_In2. unfold vs. rewrite nth_error_map, Hj'. auto.
  - subst l. rewrite firstn_map. apply in_map_iff. exists (j, i). split; auto.
    set (es := combine (seq 0 (length front)) front) in *.
    assert (NE : NoDup es).
    { apply (NoDup_map_inv snd). unfold es. rewrite snd_combine_seq. auto. }
    apply (sorted_prefix (fun e : nat * nat => d (fst e)) _ (j, i) k (map (fun j => (j, nth j front 0)) L)).
    + apply stable_ext_sorted.
    + eapply Permutation_NoDup; [symmetry; apply stable_ext_perm|auto].
    + intros [j' i'] Hy Ky. simpl in Ky. apply (Permutation_in _ (stable_ext_perm _ _)) in Hy. apply combine_seq_In' in Hy.
      apply L1 in Ky. destruct Ky as [Ky|Ky]; [discriminate|]. apply in_map_iff. exists j'. split; auto.
      erewrite nth_error_nth by eauto. auto.
    + rewrite map_length. lia.
    + apply (Permutation_in _ (Permutation_sym (stable_ext_perm _ _))). apply combine_seq_In'. auto.
    + exact Iz.
Qed.

(** Who is kept of the last front is at least as isolated as who is dropped. *)
Lemma crowd_pick_best ws front l k d : NoDup front -> crowd_pick ws front = Some l ->
  assignCrowdingDist (map (fun i => nth i ws []) front) = Some d ->
  forall i j p q, nth_error front p = Some i -> nth_error front q = Some j ->
  In i (firstn k l) -> ~ In j (firstn k l) -> ext_le (d q) (d p).
Proof.
  intros ND E Ed i j p q Hp Hq Hi Hj. unfold crowd_pick in E. rewrite Ed in E.
  assert (El : l = map snd (stable_ext_desc (fun e => d (fst e)) (combine (seq 0 (length front)) front))) by congruence. clear E.
  subst l. set (es := stable_ext_desc (fun e : nat * nat => d (fst e)) (combine (seq 0 (length front)) front)) in *.
  assert (PE : Permutation es (combine (seq 0 (length front)) front)) by apply stable_ext_perm.
  rewrite firstn_map in Hi, Hj. apply in_map_iff in Hi. destruct Hi as ((p' & i') & Ei & Hi). simpl in Ei. subst i'.
  assert (p' = p).
  { assert (K : In (p', i) es) by (apply in_firstn in Hi; auto). apply (Permutation_in _ PE) in K. apply combine_seq_In' in K.
    eapply (proj1 (NoDup_nth_error front) ND); [apply nth_error_Some; congruence|congruence]. }
  subst p'.
  assert (K : In (q, j) es).
  { apply (Permutation_in _ (Permutation_sym PE)). apply combine_seq_In'. auto. }
  rewrite <- (firstn_skipn k es) in K. apply in_app_or in K. destruct K as [K|K].
  - exfalso. apply Hj. apply in_map_iff. exists (q, j). auto.
  - apply (sorted_split _ es k (stable_ext_sorted _ _) (p, i) (q, j) Hi K).
Qed.

(** ** What the crowding distance is *)
Lemma crowd_mid_out i norm : forall crowd dist j a, ~ In j (map snd crowd) -> crowd_mid i norm (a :: crowd) dist j = dist j.
Proof.
  induction crowd as [|c [|x r] IH]; intros dist j a H; try reflexivity.
  change (crowd_mid i norm (a :: c :: x :: r) dist) with
    (crowd_mid i norm (c :: x :: r) (upd dist (snd c) (ext_add (dist (snd c)) ((coord i (fst x) - coord i (fst a)) / norm)%Q))).
  rewrite IH.
  - unfold upd. destruct (Nat.eqb_spec j (snd c)); auto. subst. exfalso. apply H. simpl. auto.
  - intro K. apply H. simpl. simpl in K. auto.
Qed.

Lemma crowd_mid_in i norm p c x l2 : forall l1 dist, NoDup (map snd (l1 ++ p :: c :: x :: l2)) ->
  crowd_mid i norm (l1 ++ p :: c :: x :: l2) dist (snd c) = ext_add (dist (snd c)) ((coord i (fst x) - coord i (fst p)) / norm)%Q.
Proof.
  induction l1 as [|a l1 IH]; intros dist ND.
  - cbn [app]. change (crowd_mid i norm (p :: c :: x :: l2) dist) with
      (crowd_mid i norm (c :: x :: l2) (upd dist (snd c) (ext_add (dist (snd c)) ((coord i (fst x) - coord i (fst p)) / norm)%Q))).
    rewrite crowd_mid_out.
    + unfold upd. rewrite Nat.eqb_refl. auto.
    + simpl in ND. inversion ND; subst. inversion H2; subst. auto.
  - assert (ND' : NoDup (map snd (l1 ++ p :: c :: x :: l2))) by (simpl in ND; inversion ND; auto).
    assert (Hd : exists b y r, l1 ++ p :: c :: x :: l2 = b :: y :: r /\ b <> c /\ snd b <> snd c).
    { assert (G : forall b r, l1 ++ p :: c :: x :: l2 = b :: r -> snd b <> snd c).
      { intros b r E K. rewrite E in ND'. simpl in ND'. inversion ND'; subst. apply H1. destruct l1 as [|z l1]; simpl in E.
        - inversion E; subst. simpl. auto.
        - inversion E; subst. rewrite K. apply in_map. apply in_or_app. right. simpl. auto. }
      destruct l1 as [|b [|y l1]]; simpl.
      - exists p, c, (x :: l2). repeat split; auto; [|eapply G; simpl; eauto]. intros ->. eapply G; simpl; eauto.
      - exists b, p, (c :: x :: l2). repeat split; auto; [|eapply G; simpl; eauto]. intros ->. eapply G; simpl; eauto.
      - exists b, y, (l1 ++ p :: c :: x :: l2). repeat split; auto; [|eapply G; simpl; eauto]. intros ->. eapply G; simpl; eauto. }
    destruct Hd as (b & y & r & E & Nb & Ns). cbn [app]. rewrite E.
    change (crowd_mid i norm (a :: b :: y :: r) dist) with
      (crowd_mid i norm (b :: y :: r) (upd dist (snd b) (ext_add (dist (snd b)) ((coord i (fst y) - coord i (fst a)) / norm)%Q))).
    rewrite <- E, IH by auto. unfold upd. destruct (Nat.eqb_spec (snd c) (snd b)); [congruence|]. auto.
Qed.

Lemma sorted_parts {A} (R : A -> A -> Prop) l1 y l2 : StronglySorted R (l1 ++ y :: l2) ->
  (forall u, In u l1 -> R u y) /\ (forall u, In u l2 -> R y u).
Proof.
  induction l1 as [|a l1 IH]; simpl; intro H; inversion H; subst.
  - split; [intros u []|]. rewrite Forall_forall in H3. auto.
  - destruct (IH H2) as [A1 A2]. split; auto. intros u [<-|Hu]; auto. rewrite Forall_forall in H3. apply H3.
    apply in_or_app. simpl. auto.
Qed.

Lemma crowd_obj_unfold m f crowd dist s a r : sort_asc (fun e : centry => coord f (fst e)) crowd = s -> s = a :: r ->
  crowd_obj m f crowd dist =
  (s, if Qeq_bool (coord f (fst (last s ([], 0)))) (coord f (fst a)) then upd (upd dist (snd a) PInf) (snd (last s ([], 0))) PInf
      else crowd_mid f (inject_Z (Z.of_nat m) * (coord f (fst (last s ([], 0%nat))) - coord f (fst a)))%Q s
             (upd (upd dist (snd a) PInf) (snd (last s ([], 0))) PInf)).
Proof. intros E1 E2. unfold crowd_obj. rewrite E1, E2. destruct (Qeq_bool _ _); auto. Qed.

Lemma last_In {A} (l : list A) d : l <> [] -> In (last l d) l.
Proof. intro N. rewrite (app_removelast_last d N) at 2. apply in_or_app. simpl. auto. Qed.

Lemma last_app_r {A} (l r : list A) d : r <> [] -> last (l ++ r) d = last r d.
Proof.
  intro N. induction l as [|a l IH]; auto. simpl. rewrite IH. destruct (l ++ r) eqn:E; auto. apply app_eq_nil in E. tauto.
Qed.

Section Dist.
Context (vs : list (list Q)) (m : nat).
Let base := combine vs (seq 0 (length vs)).

Lemma base_In w j : In (w, j) base <-> nth_error vs j = Some w.
Proof. unfold base. split; [apply combine_seq_In|apply combine_seq_In2]. Qed.

Lemma base_snd : map snd base = seq 0 (length vs).
Proof.
  unfold base. generalize 0. induction vs as [|a l IH]; intro s; simpl; auto. f_equal. auto.
Qed.

Lemma obj_step f crowd dist v j : Permutation crowd base -> all_different vs f -> nth_error vs j = Some v ->
  (extreme vs f v -> snd (crowd_obj m f crowd dist) j = PInf) /\
  (~ extreme vs f v -> exists g, gap vs m f v g /\ snd (crowd_obj m f crowd dist) j = ext_add (dist j) g).
Proof.
  intros P D Hj.
  set (key := fun e : centry => coord f (fst e)).
  set (s := sort_asc key crowd).
  assert (Ps : Permutation s base) by (unfold s; rewrite sort_asc_perm; auto).
  assert (NDs : NoDup (map snd s)).
  { eapply Permutation_NoDup; [apply Permutation_map; symmetry; exact Ps|]. rewrite base_snd. apply seq_NoDup. }
  assert (SS : StronglySorted (fun x y => (key x <= key y)%Q) s) by apply sort_asc_sorted.
  assert (Hin : In (v, j) s) by (apply (Permutation_in _ (Permutation_sym Ps)), base_In; auto).
  assert (InV : forall e, In e s -> nth_error vs (snd e) = Some (fst e)).
  { intros [w i] He. apply (Permutation_in _ Ps) in He. apply base_In. auto. }
  assert (Strict : forall a l1 b l2, s = l1 ++ b :: l2 -> In a l1 -> (key a < key b)%Q).
  { intros a l1 b l2 E Ha. rewrite E in SS. destruct (sorted_parts _ _ _ _ SS) as [S1 _]. specialize (S1 a Ha). simpl in S1.
    destruct (Qlt_le_dec (key a) (key b)) as [|Hle]; auto. exfalso.
    assert (Eq : snd a = snd b).
    { eapply (D (snd a) (snd b)); [apply InV|apply InV|].
      - rewrite E. apply in_or_app. auto.
      - rewrite E. apply in_or_app. simpl. auto.
      - unfold key, coord in *. lra. }
    rewrite E, map_app in NDs. simpl in NDs. apply NoDup_app_iff in NDs. destruct NDs as (_ & _ & N).
    apply (N (snd a)); [apply in_map; auto|]. simpl. auto. }
  assert (Vs : forall u, In u vs -> exists e, In e s /\ fst e = u).
  { intros u Hu. apply In_nth_error in Hu. destruct Hu as (i & Hi). exists (u, i). split; auto.
    apply (Permutation_in _ (Permutation_sym Ps)), base_In. auto. }
  assert (Sv : forall e, In e s -> In (fst e) vs) by (intros e He; apply InV in He; eapply nth_error_In; eauto).
  apply in_split in Hin. destruct Hin as (l1 & l2 & Es).
  assert (Hs : exists a r, s = a :: r) by (destruct s as [|a r]; [destruct l1; discriminate|eauto]).
  destruct Hs as (a & r & Ea).
  assert (Ka : forall u, In u vs -> (nth f (fst a) 0 <= nth f u 0)%Q).
  { intros u Hu. destruct (Vs u Hu) as (e & He & <-). rewrite Ea in SS, He. inversion SS; subst. destruct He as [<-|He]; [lra|].
    rewrite Forall_forall in H2. apply (H2 e He). }
  set (z := last s ([], 0)).
  assert (Hz : exists s', s = s' ++ [z]).
  { unfold z. exists (removelast s). apply app_removelast_last. rewrite Ea. discriminate. }
  destruct Hz as (s' & Ez).
  assert (Kz : forall u, In u vs -> (nth f u 0 <= nth f (fst z) 0)%Q).
  { intros u Hu. destruct (Vs u Hu) as (e & He & <-). rewrite Ez in He. apply in_app_or in He. destruct He as [He|[<-|[]]]; [|lra].
    apply Qlt_le_weak. apply (Strict e s' z []); auto. }
  rewrite (crowd_obj_unfold m f crowd dist s a r eq_refl Ea). fold z. cbn [snd].
  assert (Edge : j = snd a \/ j = snd z ->
    (if Qeq_bool (coord f (fst z)) (coord f (fst a)) then upd (upd dist (snd a) PInf) (snd z) PInf
     else crowd_mid f (inject_Z (Z.of_nat m) * (coord f (fst z) - coord f (fst a)))%Q s (upd (upd dist (snd a) PInf) (snd z) PInf)) j = PInf).
  { intro H. assert (K : upd (upd dist (snd a) PInf) (snd z) PInf j = PInf).
    { unfold upd. destruct (Nat.eqb_spec j (snd z)); auto. destruct (Nat.eqb_spec j (snd a)); auto. destruct H; congruence. }
    destruct (Qeq_bool _ _); auto. apply crowd_mid_pinf. auto. }
  destruct l1 as [|p l1 _] using rev_ind.
  - (* first *)
    simpl in Es. assert (a = (v, j)) by congruence. subst a. split; [intro; apply Edge; auto|].
    intro N. exfalso. apply N. left. exact Ka.
  - destruct l2 as [|x l2].
    + (* last *)
      assert (z = (v, j)) by (unfold z; rewrite Es; apply last_last).
      split; [intro; apply Edge; right; rewrite H; auto|]. intro N. exfalso. apply N. right. rewrite H in Kz. exact Kz.
    + (* inside *)
      assert (Es2 : s = l1 ++ p :: (v, j) :: x :: l2) by (rewrite Es, <- app_assoc; auto).
      assert (Lp : (nth f (fst p) 0 < nth f v 0)%Q).
      { apply (Strict p (l1 ++ [p]) (v, j) (x :: l2)); auto. apply in_or_app. simpl. auto. }
      assert (Lx : (nth f v 0 < nth f (fst x) 0)%Q).
      { apply (Strict (v, j) ((l1 ++ [p]) ++ [(v, j)]) x l2); [rewrite Es; rewrite <- !app_assoc; reflexivity|]. apply in_or_app. simpl. auto. }
      assert (Hp : In (fst p) vs) by (apply Sv; rewrite Es2; apply in_or_app; simpl; auto).
      assert (Hx : In (fst x) vs) by (apply Sv; rewrite Es2; apply in_or_app; simpl; auto).
      split.
      * intros [X|X]; [specialize (X _ Hp)|specialize (X _ Hx)]; lra.
      * intros _. exists ((nth f (fst x) 0 - nth f (fst p) 0) / (inject_Z (Z.of_nat m) * (nth f (fst z) 0 - nth f (fst a) 0)))%Q. split.
        -- exists (fst p), (fst x), (fst a), (fst z). split; [auto|split; [auto|split; [apply Sv; rewrite Ea; simpl; auto|split; [apply Sv; rewrite Ez; apply in_or_app; simpl; auto|]]]].
           split; [auto|split; [auto|split; [|split; [|split; [intros u Hu; split; auto|lra]]]]].
           ++ intros u Hu Hlt. destruct (Vs u Hu) as (e & He & <-). rewrite Es in He, SS. apply in_app_or in He.
              destruct He as [He|[<-|He]].
              ** apply in_app_or in He. destruct He as [He|[<-|[]]]; [|lra]. rewrite <- app_assoc in SS. simpl in SS.
                 destruct (sorted_parts _ _ _ _ SS) as [S1 _]. apply (S1 e He).
              ** simpl in Hlt. lra.
              ** destruct (sorted_parts _ _ _ _ SS) as [_ S2]. specialize (S2 e He). unfold key, coord in S2. simpl in S2. lra.
           ++ intros u Hu Hlt. destruct (Vs u Hu) as (e & He & <-). rewrite Es in He, SS. apply in_app_or in He.
              destruct He as [He|[<-|[<-|He]]].
              ** destruct (sorted_parts _ _ _ _ SS) as [S1 _]. specialize (S1 e He). unfold key, coord in S1. simpl in S1. lra.
              ** simpl in Hlt. lra.
              ** lra.
              ** replace ((l1 ++ [p]) ++ (v, j) :: x :: l2) with (((l1 ++ [p]) ++ [(v, j)]) ++ x :: l2) in SS by (rewrite <- !app_assoc; auto).
                 destruct (sorted_parts _ _ _ _ SS) as [_ S2]. apply (S2 e He).
        -- assert (Na : j <> snd a).
           { intro K. rewrite Ea in Es. rewrite Ea in NDs. simpl in NDs. inversion NDs; subst.
             destruct l1 as [|y l1]; simpl in Es; inversion Es; subst; apply H1; [simpl; auto|].
             rewrite map_app. simpl. apply in_or_app. simpl. auto. }
           assert (Nz : j <> snd z).
           { intro K. rewrite Es2 in NDs. rewrite map_app in NDs. simpl in NDs. apply NoDup_app_iff in NDs. destruct NDs as (_ & N & _).
             apply NoDup_cons_iff in N. destruct N as [_ N]. apply NoDup_cons_iff in N. destruct N as [N _]. apply N.
             assert (Zl : In (snd z) (map snd (x :: l2))).
             { apply in_map. unfold z. rewrite Es2.
               replace (l1 ++ p :: (v, j) :: x :: l2) with ((l1 ++ [p; (v, j)]) ++ x :: l2) by (rewrite <- app_assoc; auto).
               rewrite last_app_r by discriminate. apply last_In. discriminate. }
             rewrite <- K in Zl. exact Zl. }
           assert (Neq : Qeq_bool (coord f (fst z)) (coord f (fst a)) = false).
           { destruct (Qeq_bool _ _) eqn:Q; auto. apply Qeq_bool_iff in Q. unfold coord in Q.
             specialize (Ka _ Hp). specialize (Kz _ Hx). lra. }
           rewrite Neq. rewrite Es2 at 1. rewrite (crowd_mid_in f _ p (v, j) x l2 l1).
           ++ cbn [fst snd]. unfold upd. destruct (Nat.eqb_spec j (snd z)); [congruence|]. destruct (Nat.eqb_spec j (snd a)); [congruence|]. auto.
           ++ rewrite <- Es2. auto.
Qed.
End Dist.

Section Dist2.
Context (vs : list (list Q)) (m : nat).

Lemma objs_spec v j : nth_error vs j = Some v -> forall is_ crowd dist,
  Permutation crowd (combine vs (seq 0 (length vs))) -> (forall f, In f is_ -> all_different vs f) ->
  ((exists f, In f is_ /\ extreme vs f v) -> crowd_objs m is_ crowd dist j = PInf) /\
  ((forall f, In f is_ -> ~ extreme vs f v) -> forall q0, dist j = Fin q0 ->
    exists gs q, Forall2 (fun f g => gap vs m f v g) is_ gs /\ crowd_objs m is_ crowd dist j = Fin q /\ (q == q0 + total gs)%Q).
Proof.
  intro Hj. induction is_ as [|f is_ IH]; intros crowd dist P D.
  - simpl. split; [intros (f & [] & _)|]. intros _ q0 E. exists [], q0. split; [constructor|split; auto]. simpl. lra.
  - cbn [crowd_objs]. pose proof (crowd_obj_perm m f crowd dist) as P'. pose proof (crowd_obj_pinf m f crowd dist j) as PI.
    destruct (obj_step vs m f crowd dist v j P (D f (or_introl eq_refl)) Hj) as [S1 S2].
    destruct (crowd_obj m f crowd dist) as [crowd' dist']. cbn [fst snd] in *.
    assert (P2 : Permutation crowd' (combine vs (seq 0 (length vs)))) by (rewrite P'; auto).
    destruct (IH crowd' dist' P2) as [I1 I2]; [intros; apply D; simpl; auto|]. split.
    + intros (g & [<-|Hg] & X).
      * destruct (crowd_objs_infs m is_ crowd' dist') as (L & _ & _ & L2 & _).
        { intros ->. apply Permutation_nil in P2. apply (f_equal (@length _)) in P2. rewrite combine_length, seq_length in P2.
          apply nth_error_In in Hj. destruct vs; [destruct Hj|]. simpl in P2. lia. }
        apply L2. auto.
      * apply I1. eauto.
    + intros N q0 E0. destruct (S2 (N f (or_introl eq_refl))) as (g & G & Eg). rewrite E0 in Eg. simpl in Eg.
      destruct (I2 (fun f' H => N f' (or_intror H)) _ Eg) as (gs & q & F & Eq & Qq).
      exists (g :: gs), q. split; [constructor; auto|split; auto]. simpl. lra.
Qed.

Lemma dist_spec d v j : Forall (fun w => length w = m) vs -> (forall f, f < m -> all_different vs f) ->
  assignCrowdingDist vs = Some d -> nth_error vs j = Some v ->
  ((exists f, f < m /\ extreme vs f v) -> d j = PInf) /\
  ((forall f, f < m -> ~ extreme vs f v) ->
    exists gs q, length gs = m /\ (forall f g, nth_error gs f = Some g -> gap vs m f v g) /\ d j = Fin q /\ (q == total gs)%Q).
Proof.
  intros L D E Hj. unfold assignCrowdingDist in E. destruct vs as [|w r] eqn:Ev; [discriminate|]. rewrite <- Ev in *.
  assert (Lw : length w = m) by (rewrite Ev in L; inversion L; auto). rewrite Lw in E.
  assert (Ed : d = crowd_objs m (seq 0 m) (combine vs (seq 0 (length vs))) (fun _ => Fin 0)) by congruence. subst d.
  destruct (objs_spec v j Hj (seq 0 m) (combine vs (seq 0 (length vs))) (fun _ => Fin 0)) as [A B]; auto.
  { intros f Hf. apply D. apply in_seq in Hf. lia. }
  split.
  - intros (f & Hf & X). apply A. exists f. split; auto. apply in_seq. lia.
  - intro N. destruct (B ltac:(intros f Hf; apply N; apply in_seq in Hf; lia) 0%Q eq_refl) as (gs & q & F & Eq & Qq).
    exists gs, q. split; [|split; [|split; [auto|lra]]].
    + apply Forall2_length in F. rewrite seq_length in F. auto.
    + intros f g Hg. assert (Hf : f < m).
      { apply Forall2_length in F. rewrite seq_length in F. rewrite F. apply nth_error_Some. congruence. }
      apply (Forall2_nth_error _ _ _ f f g F); auto. rewrite nth_error_nth' with (d := 0) by (rewrite seq_length; auto).
      rewrite seq_nth by auto. auto.
Qed.
End Dist2.
