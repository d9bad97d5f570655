(** Proofs about the ant colony. *)
From Coq Require Import List Arith ZArith QArith Qabs Bool Lia Lqa Permutation Sorting.Sorted.
From Verif Require Import Base BaseFacts Space_Model Space_Spec Space_Facts Opt_Model Opt_Spec Opt_Facts Opt_Facts2 Pop_Model Pop_Spec Pop_Proofs Swarm_Model ACO_Model ACO_Spec.
Import ListNotations.
Open Scope nat_scope.

(** In a sorted list with at least [k] entries of cost at most [c], the first [k] cost at most [c]. *)
Lemma sorted_prefix {X} (cost : X -> Q) (c : Q) l : StronglySorted (fun x y => (cost x <= cost y)%Q) l -> forall k,
  k <= length (filter (fun x => Qle_bool (cost x) c) l) -> Forall (fun x => (cost x <= c)%Q) (firstn k l).
Proof.
  intros HS. induction HS as [|a l HS IH Ha]; intros k Hk; [destruct k; constructor|].
  destruct k as [|k]; [constructor|]. simpl in *. destruct (Qle_bool (cost a) c) eqn:E; qprop.
  - constructor; auto. apply IH. simpl in Hk. lia.
  - exfalso. assert (Z : filter (fun x => Qle_bool (cost x) c) l = []).
    { clear IH HS Hk. induction Ha as [|b l Hb Ha IH]; auto. simpl. destruct (Qle_bool (cost b) c) eqn:Eb; qprop; auto. exfalso; lra. }
    rewrite Z in Hk. simpl in Hk. lia.
Qed.
Lemma filter_perm {X} (p : X -> bool) l l' : Permutation l l' -> Permutation (filter p l) (filter p l').
Proof. intros H. induction H; simpl; auto; try (destruct (p x); auto); try (destruct (p y); auto; constructor); eauto using perm_trans. Qed.
Lemma filter_true {X} (p : X -> bool) l : (forall x, In x l -> p x = true) -> filter p l = l.
Proof. induction l; simpl; intros H; auto. rewrite H by auto. f_equal. auto. Qed.

Lemma k_best_step {X} (cost : X -> Q) k all arch new : k <= length arch ->
  (exists rest, Permutation all (arch ++ rest) /\ forall a r, In a arch -> In r rest -> (cost a <= cost r)%Q) ->
  k_best cost k (all ++ new) (firstn k (sort_asc cost (arch ++ new))).
Proof.
  intros L (rest & P & C). set (S0 := sort_asc cost (arch ++ new)).
  assert (HS : StronglySorted (fun x y => (cost x <= cost y)%Q) S0) by apply sort_asc_sorted.
  assert (HP : Permutation S0 (arch ++ new)) by apply sort_asc_perm.
  split. { rewrite firstn_length, (Permutation_length HP), app_length. lia. }
  exists (skipn k S0 ++ rest). split.
  - rewrite app_assoc, firstn_skipn, HP, P, <- !app_assoc. apply Permutation_app_head. apply Permutation_app_comm.
  - intros a r Ha Hr. apply in_app_or in Hr. destruct Hr as [Hr|Hr].
    + exact (sorted_split _ _ k HS a r Ha Hr).
    + assert (F : Forall (fun x => (cost x <= cost r)%Q) (firstn k S0)).
      { apply sorted_prefix; auto. rewrite (Permutation_length (filter_perm _ _ _ HP)), filter_app, app_length.
        rewrite filter_true; [lia|]. intros x Hx. apply Qle_bool_iff. auto. }
      rewrite Forall_forall in F. auto.
Qed.

Section A.
Context (m : mode) (fit : list Q -> Q) (ds : list dimn) (W : wf_dims ds).
Let g := fun x => as_min m (fit x).
Let cost (x : list Q) : list Q * Q := (x, as_min m (fit x)).

Lemma traverse_length {A B} (f : nat -> A -> option B) l : forall i l', traverse f i l = Some l' -> length l' = length l.
Proof.
  induction l as [|a l IH]; intros i l' H; simpl in H; [inversion H; auto|].
  apply bind_Some in H. destruct H as (b & Eb & H). apply bind_Some in H. destruct H as (r & Er & H). inversion H; subst. simpl. f_equal. eauto.
Qed.
Lemma nums_Num v : nums (map Num v) = v.
Proof. induction v; simpl; congruence. Qed.

(** With at least two archive members no coordinate is NaN. *)
Lemma coord_num probs z npop means d j a : 2 <= npop -> aco_coord probs z npop means d j = Some a -> exists q, a = Num q.
Proof.
  intros H E. unfold aco_coord in E. apply bind_Some in E. destruct E as (k & Ek & E). apply bind_Some in E. destruct E as (row & Er & E).
  apply bind_Some in E. destruct E as (x & Ex & E). unfold aco_sigma in E. replace (npop - 1 =? 0) with false in E by (symmetry; apply Nat.eqb_neq; lia).
  inversion E. eauto.
Qed.
Lemma traverse_Num (f : nat -> nat -> option fnum) l : (forall i a b, f i a = Some b -> exists q, b = Num q) -> forall i v,
  traverse f i l = Some v -> exists w, v = map Num w /\ length w = length l.
Proof.
  intros Hf. induction l as [|a l IH]; intros i v H; simpl in H; [inversion H; exists []; auto|].
  apply bind_Some in H. destruct H as (b & Eb & H). apply bind_Some in H. destruct H as (r & Er & H). inversion H; subst.
  destruct (Hf _ _ _ Eb) as (q & ->). destruct (IH _ _ Er) as (w & -> & Lw). exists (q :: w). simpl. auto.
Qed.
Lemma ant_inside probs z npop means d x : 2 <= npop -> aco_ant probs z npop ds means d = Some x -> inside (dim_bounds ds) x.
Proof.
  intros H E. unfold aco_ant in E. apply bind_Some in E. destruct E as (v & Ev & E). apply bind_Some in E. destruct E as (w & Ew & E). inversion E; subst x.
  apply traverse_Num in Ev; [|intros; eapply coord_num; eauto]. destruct Ev as (u & -> & Lu). rewrite seq_length in Lu.
  change (bnds ds) with (dim_bounds ds) in Ew. rewrite ensure_bounds_numbers in Ew; [|apply wf_proper; auto|rewrite dim_bounds_length; auto].
  inversion Ew. rewrite nums_Num. apply clip_inside; auto.
Qed.

Context (nants npop : nat) (n2 : 2 <= npop) (na : npop <= nants).

Definition aco_inv (init : list (list Q)) (k : nat) (st : aco_state) : Prop :=
  npop <= length (ac_arch st) /\ (k <> 0 -> k_best snd npop (map cost (ac_log st)) (ac_arch st)) /\
  (exists rest, Permutation (map cost (ac_log st)) (ac_arch st ++ rest) /\ forall a r, In a (ac_arch st) -> In r rest -> (snd a <= snd r)%Q) /\
  (forall b, nth_error (ac_arch st) 0 = Some b -> forall x, In x (ac_log st) -> (snd b <= g x)%Q) /\
  (exists rest, ac_log st = init ++ rest /\ Forall (inside (dim_bounds ds)) rest) /\
  length (ac_log st) = nants * S k /\
  (k <> 0 -> exists pre pos, ac_log st = pre ++ pos /\ length pos = nants /\ ac_new st = map cost pos) /\
  length (ac_local st) = k /\ length (ac_global st) = k /\
  global_exact m fit nants 2 (ac_log st) (ac_global st) /\
  local_exact m fit nants 2 (ac_log st) (ac_local st) /\
  (forall v b, nth_error (ac_global st) (k - 1) = Some v -> nth_error (ac_arch st) 0 = Some b -> v = as_min m (snd b)).

Lemma head_min (l : list (list Q * Q)) k b : nth_error (firstn k (sort_asc snd l)) 0 = Some b -> forall x, In x l -> (snd b <= snd x)%Q.
Proof.
  intros H x Hx. pose proof (sort_asc_sorted snd l) as HS. apply (in_sort_asc snd) in Hx. destruct (sort_asc snd l) as [|a r]; [destruct k; discriminate|].
  destruct k; [discriminate|]. simpl in H. inversion H; subst. inversion HS as [|? ? ? F]; subst. destruct Hx as [->|Hx]; [lra|].
  rewrite Forall_forall in F. auto.
Qed.

Lemma aco_step probs z drs init k st st' : aco_inv init k st -> aco_gen m fit ds probs z nants npop drs k st = Some st' -> aco_inv init (S k) st'.
Proof.
  intros (A & B0 & B & C & D & E & F & H1 & H2 & H3 & H4 & H5) H. unfold aco_gen in H.
  apply bind_Some in H. destruct H as (means & Em & H). apply bind_Some in H. destruct H as (pos & Ep & H). cbv zeta in H.
  change (map (fun x => (x, as_min m (fit x))) pos) with (map cost pos) in H.
  apply bind_Some in H. destruct H as (b & Eb & H). apply bind_Some in H. destruct H as ([ai lo] & Ea & H). inversion H; subst st'; clear H.
  assert (Lp : length pos = nants) by (apply traverse_length in Ep; rewrite seq_length in Ep; auto).
  assert (Ip : Forall (inside (dim_bounds ds)) pos).
  { apply (traverse_Forall _ (fun _ => True) (inside (dim_bounds ds))) in Ep; auto; [intros; eapply ant_inside; eauto|apply Forall_forall; auto]. }
  pose proof (k_best_step snd npop (map cost (ac_log st)) (ac_arch st) (map cost pos) A B) as K. rewrite <- map_app in K.
  set (arch := firstn npop (sort_asc snd (ac_arch st ++ map cost pos))) in *.
  assert (Hm : forall x, In x (ac_log st ++ pos) -> (snd b <= g x)%Q).
  { intros x Hx. destruct K as (_ & rest & P & Q). assert (I : In (cost x) (arch ++ rest)).
    { eapply Permutation_in; [exact P|]. apply in_map. auto. }
    apply in_app_or in I. destruct I as [I|I].
    - unfold arch in I. change (g x) with (snd (cost x)). eapply head_min; eauto. apply in_firstn in I. apply in_sort_asc in I. exact I.
    - change (g x) with (snd (cost x)). apply Q; auto. eapply nth_error_In; eauto. }
  assert (Ib : exists x, In x (ac_log st ++ pos) /\ b = cost x).
  { destruct K as (_ & rest & P & _). assert (I : In b (map cost (ac_log st ++ pos))).
    { eapply Permutation_in; [apply Permutation_sym; exact P|]. apply in_or_app. left. eapply nth_error_In; eauto. }
    apply in_map_iff in I. destruct I as (x & <- & I). eauto. }
  assert (Bo : exists x, best_of m fit (ac_log st ++ pos) x (as_min m (snd b))).
  { destruct Ib as (x & I & Eq). exists x. apply min_of_best. split; auto. split; [rewrite Eq; simpl; reflexivity|]. intros y Hy. apply Hm. auto. }
  assert (Lo : exists x, best_of m fit pos x (as_min m lo)).
  { rewrite map_map in Ea. change (map (fun x => snd (cost x)) pos) with (map g pos) in Ea. apply min_of_argmin in Ea. destruct Ea as (x & _ & M). exists x. apply min_of_best. exact M. }
  unfold aco_inv. cbn [ac_arch ac_new ac_local ac_global ac_log].
  split. { destruct K as (K & _). lia. } split; [intros _; exact K|]. split; [destruct K as (_ & K); exact K|].
  split. { intros b' Hb' x Hx. assert (b' = b) by congruence. subst b'. apply Hm; auto. }
  split. { destruct D as (rest & D1 & D2). exists (rest ++ pos). rewrite D1, <- app_assoc. split; auto. apply Forall_app; auto. }
  split. { rewrite app_length, E, Lp. rewrite (Nat.mul_succ_r nants (S k)). lia. }
  split. { intros _. exists (ac_log st), pos. auto. }
  split. { rewrite app_length; simpl; lia. } split. { rewrite app_length; simpl; lia. }
  destruct Bo as (bx & Bo). destruct Lo as (lx & Lo).
  split. { eapply global_exact_snoc; eauto. rewrite E, H2. f_equal. lia. }
  split. { eapply local_exact_snoc; eauto. rewrite E, H1. f_equal. lia. }
  intros v b' Hv Hb'. assert (b' = b) by congruence. subst b'. simpl in Hv. rewrite Nat.sub_0_r in Hv. rewrite nth_error_app2, H2, Nat.sub_diag in Hv by lia. inversion Hv. reflexivity.
Qed.

Lemma aco_init_inv init : length init = nants -> aco_inv init 0 (AcoSt (sort_asc snd (map cost init)) [] [] [] init).
Proof.
  intros L. unfold aco_inv. cbn [ac_arch ac_new ac_local ac_global ac_log].
  split. { rewrite sort_asc_length, map_length. lia. } split; [lia|].
  split. { exists []. rewrite app_nil_r. split; [apply Permutation_sym, sort_asc_perm|simpl; tauto]. }
  split. { intros b Hb x Hx. change (g x) with (snd (cost x)). apply (head_min (map cost init) (length (sort_asc snd (map cost init)))).
    - rewrite firstn_all. auto.
    - apply in_map; auto. }
  split. { exists []. rewrite app_nil_r. auto. } split; [lia|]. split; [lia|]. split; auto. split; auto.
  split; [apply global_exact_nil|]. split; [apply local_exact_nil|]. discriminate.
Qed.

Lemma aco_best_ok expf c q z ngen drs init r : aco_evolute m fit ds expf c q z nants npop ngen drs init = Some r ->
  best_of m fit (ar_log r) (ar_x r) (ar_y r) /\
  (exists rest, ar_log r = init ++ rest /\ Forall (inside (dim_bounds ds)) rest) /\
  length (ar_log r) = nants * (ngen + 1) /\
  length (ar_hg r) = ngen /\ global_exact m fit nants 2 (ar_log r) (ar_hg r) /\ never_worse m (ar_hg r) /\
  nth_error (ar_hg r) (ngen - 1) = Some (ar_y r) /\
  length (ar_hl r) = ngen /\ local_exact m fit nants 2 (ar_log r) (ar_hl r) /\
  (exists early, ar_log r = early ++ ar_pop r) /\ length (ar_pop r) = nants /\ Forall2 (fun x v => (v == fit x)%Q) (ar_pop r) (ar_pf r) /\
  k_best snd npop (map (fun x => (x, as_min m (fit x))) (ar_log r)) (ar_arch r).
Proof.
  intros H. unfold aco_evolute in H. destruct (nants <? npop) eqn:E1; [discriminate|]. destruct (negb (length init =? nants)) eqn:E2; [discriminate|].
  apply negb_false_iff, Nat.eqb_eq in E2. destruct (ngen =? 0) eqn:E0; [discriminate|]. apply Nat.eqb_neq in E0.
  change (map (fun x => (x, as_min m (fit x))) init) with (map cost init) in H.
  apply bind_Some in H. destruct H as (st & Eg & H). apply bind_Some in H. destruct H as (b & Eb & H). inversion H; subst r; clear H.
  apply (gens_nat _ (aco_inv init)) with (1 := fun k s s' => aco_step (aco_probs expf c q npop) z drs init k s s') in Eg; [|apply aco_init_inv; auto].
  simpl in Eg. destruct Eg as (A & B0 & B & C & D & E & F & H1 & H2 & H3 & H4 & H5).
  cbn [ar_x ar_y ar_hl ar_hg ar_pop ar_pf ar_arch ar_log].
  specialize (B0 E0). destruct (F E0) as (pre & pos & F1 & F2 & F3).
  assert (Ep : map fst (ac_new st) = pos). { rewrite F3, map_map. simpl. apply map_id. }
  split. { destruct B0 as (_ & rest & P & _). assert (I : In b (map cost (ac_log st))).
    { eapply Permutation_in; [apply Permutation_sym; exact P|]. apply in_or_app. left. eapply nth_error_In; eauto. }
    apply in_map_iff in I. destruct I as (x & <- & I). apply min_of_best. simpl. split; auto. split; [reflexivity|]. intros y Hy. apply (C _ Eb y Hy). }
  split; auto. split. { rewrite E. f_equal. lia. } split; auto. split; auto. split. { eapply global_exact_mono; eauto. }
  split. { destruct (nth_error (ac_global st) (ngen - 1)) as [v|] eqn:Ev; [f_equal; eauto|]. apply nth_error_None in Ev. lia. }
  split; auto. split; auto. split. { exists pre. rewrite Ep. auto. } split. { rewrite Ep. auto. }
  split. { rewrite Ep, F3. clear. induction pos; simpl; constructor; auto. simpl. apply as_min_invol. }
  exact B0.
Qed.

(* Roulette. *)
Lemma qsum_app a b : (qsum (a ++ b) == qsum a + qsum b)%Q.
Proof. unfold qsum. induction a; simpl; [ring|]. rewrite IHa. ring. Qed.
Lemma roulette_total r p : forall acc i, p <> [] -> (r <= acc + qsum p)%Q -> exists k, roulette r acc i p = Some k /\ i <= k < i + length p.
Proof.
  induction p as [|x p IH]; intros acc i Hp Hr; [congruence|]. simpl. destruct (Qle_bool r (acc + x)) eqn:E; qprop.
  - exists i. split; auto. lia.
  - destruct p as [|y p].
    + simpl in Hr. exfalso. lra.
    + destruct (IH (acc + x)%Q (S i)) as (k & Hk & Lk); [discriminate|simpl in *; lra|]. exists k. split; auto. simpl in *. lia.
Qed.
Lemma qsum_div l s : ~ (s == 0)%Q -> (qsum (map (fun x => x / s) l) == qsum l / s)%Q.
Proof. intros H. unfold qsum. induction l; simpl; [field; auto|]. rewrite IHl. field. auto. Qed.
Lemma qsum_pos l : l <> [] -> Forall (fun x => (0 < x)%Q) l -> (0 < qsum l)%Q.
Proof.
  intros H F. destruct F as [|x l Hx F]; [congruence|]. simpl. assert (0 <= qsum l)%Q.
  { clear H. induction F; simpl; [lra|]. unfold qsum in *. lra. }
  unfold qsum in *. lra.
Qed.
Lemma probs_sum expf c q k : (forall x, (0 < expf x)%Q) -> (0 < c)%Q -> 1 <= k ->
  (qsum (aco_probs expf c q k) == 1)%Q /\ length (aco_probs expf c q k) = k /\ Forall (fun p => (0 < p)%Q) (aco_probs expf c q k).
Proof.
  clear n2 na W. intros He Hc Hk. unfold aco_probs. cbv zeta. set (w := map (aco_weight expf c q k) (seq 0 k)).
  assert (F : Forall (fun x => (0 < x)%Q) w).
  { unfold w. rewrite Forall_map. apply Forall_forall. intros i _. unfold aco_weight. cbv zeta. set (e := expf _). assert (0 < e)%Q by apply He. apply Qmult_lt_0_compat; auto. apply Qmult_lt_0_compat; auto. }
  assert (Lw : length w = k) by (unfold w; rewrite map_length, seq_length; auto).
  assert (P : (0 < qsum w)%Q). { apply qsum_pos; auto. intros E. rewrite E in Lw. simpl in Lw. lia. }
  split; [rewrite qsum_div by lra; field; lra|]. split; [rewrite map_length; auto|].
  rewrite Forall_map. eapply Forall_impl; [|exact F]. intros x Hx. cbv beta. apply Qlt_shift_div_l; [exact P|]. rewrite Qmult_0_l. exact Hx.
Qed.

Lemma means_ok arch : npop <= length arch -> Forall (fun xf : list Q * Q => length (fst xf) = length ds) arch ->
  exists means, aco_means npop (length ds) arch = Some means /\ length means = npop /\ Forall (fun r => length r = length ds) means.
Proof.
  intros L F. unfold aco_means. replace (length arch <? npop) with false by (symmetry; apply Nat.ltb_ge; auto).
  set (l := firstn npop arch). assert (Fl : Forall (fun xf : list Q * Q => length (fst xf) = length ds) l) by (apply Forall_forall; intros x Hx; rewrite Forall_forall in F; apply F; eapply in_firstn; eauto).
  assert (Ll : length l = npop) by (unfold l; rewrite firstn_length; lia).
  exists (map fst l). split; [|split; [rewrite map_length; auto|rewrite Forall_map; auto]].
  clear Ll. revert Fl. generalize 0. induction l as [|a l IH]; intros i Fl; auto. inversion Fl; subst. simpl. 
  rewrite (proj2 (Nat.eqb_eq _ _)) by auto. cbn [bind]. rewrite IH by auto. reflexivity.
Qed.

Lemma aco_total expf c q z ngen drs init : (forall x, (0 < expf x)%Q) -> (0 < c)%Q -> (forall g i j, (an_r (drs g i) j <= 1)%Q) ->
  length init = nants -> Forall (fun x => length x = length ds) init -> ngen <> 0 ->
  exists r, aco_evolute m fit ds expf c q z nants npop ngen drs init = Some r.
Proof.
  intros He Hc Hr L F Hn. unfold aco_evolute. replace (nants <? npop) with false by (symmetry; apply Nat.ltb_ge; auto).
  replace (length init =? nants) with true by (symmetry; apply Nat.eqb_eq; auto). replace (ngen =? 0) with false by (symmetry; apply Nat.eqb_neq; auto). cbn [negb].
  change (map (fun x => (x, as_min m (fit x))) init) with (map cost init).
  destruct (probs_sum expf c q npop He Hc ltac:(lia)) as (Ps & Pl & _). set (probs := aco_probs expf c q npop) in *.
  destruct (gens_nat_total (aco_gen m fit ds probs z nants npop drs) (fun k st => aco_inv init k st /\ Forall (fun xf => length (fst xf) = length ds) (ac_arch st)) ngen 0 (AcoSt (sort_asc snd (map cost init)) [] [] [] init)) as (st & Es & Is & _).
  - intros k st _ (I & Fa). assert (X : exists st', aco_gen m fit ds probs z nants npop drs k st = Some st' /\ Forall (fun xf => length (fst xf) = length ds) (ac_arch st')).
    { unfold aco_gen. destruct (means_ok (ac_arch st)) as (means & Em & Lm & Fm); auto. { destruct I; auto. }
      rewrite Em. cbn [bind].
      assert (T : exists pos, traverse (fun _ i => aco_ant probs z npop ds means (drs k i)) 0 (seq 0 nants) = Some pos).
      { apply (traverse_total _ (fun _ => True)); [|apply Forall_forall; auto]. intros j i _. unfold aco_ant.
        assert (T2 : exists v, traverse (fun _ j0 => aco_coord probs z npop means (drs k i) j0) 0 (seq 0 (length ds)) = Some v).
        { apply (traverse_total _ (fun j0 => j0 < length ds)).
          - intros t j0 Hj0. unfold aco_coord.
            destruct (roulette_total (an_r (drs k i) j0) probs 0 0) as (kk & Ek & Lk). { intros E0. rewrite E0 in Pl. simpl in Pl. lia. } { rewrite Ps. specialize (Hr k i j0). lra. }
            rewrite Ek. cbn [bind]. destruct (nth_error means kk) as [row|] eqn:Er; [|apply nth_error_None in Er; lia]. cbn [bind].
            destruct (nth_error row j0) as [x|] eqn:Ex; [cbn [bind]; eauto|]. apply nth_error_None in Ex. apply nth_error_In in Er. rewrite Forall_forall in Fm. rewrite (Fm _ Er) in Ex. lia.
          - apply Forall_forall. intros t Ht. apply in_seq in Ht. lia. }
        destruct T2 as (v & Ev). rewrite Ev. cbn [bind]. apply traverse_Num in Ev; [|intros; eapply coord_num; eauto]. destruct Ev as (u & -> & Lu). rewrite seq_length in Lu.
        change (bnds ds) with (dim_bounds ds). rewrite ensure_bounds_numbers; [|apply wf_proper; auto|rewrite dim_bounds_length; auto]. cbn [bind]. eauto. }
      destruct T as (pos & Ep). rewrite Ep. cbn [bind]. cbv zeta. change (map (fun x => (x, as_min m (fit x))) pos) with (map cost pos).
      assert (Lp : length pos = nants) by (apply traverse_length in Ep; rewrite seq_length in Ep; auto).
      assert (Ip : Forall (inside (dim_bounds ds)) pos).
      { apply (traverse_Forall _ (fun _ => True) (inside (dim_bounds ds))) in Ep; auto; [intros; eapply ant_inside; eauto|apply Forall_forall; auto]. }
      set (arch := firstn npop (sort_asc snd (ac_arch st ++ map cost pos))).
      assert (La : length arch = npop). { unfold arch. rewrite firstn_length, sort_asc_length, app_length, map_length. lia. }
      destruct (nth_error arch 0) as [b|] eqn:Eb; [|apply nth_error_None in Eb; lia]. cbn [bind].
      destruct (argmin_Some (map snd (map cost pos))) as (ai & lo & Ea). { intros E0. apply (f_equal (@length _)) in E0. rewrite !map_length in E0. simpl in E0. lia. }
      rewrite Ea. cbn [bind]. eexists. split; [reflexivity|]. cbn [ac_arch]. apply Forall_forall. intros xf Hxf. unfold arch in Hxf. apply in_firstn in Hxf. apply in_sort_asc in Hxf.
      apply in_app_or in Hxf. destruct Hxf as [Hxf|Hxf].
      - rewrite Forall_forall in Fa. auto.
      - apply in_map_iff in Hxf. destruct Hxf as (x & <- & Hx). simpl. rewrite Forall_forall in Ip. specialize (Ip _ Hx). apply inside_length in Ip. rewrite dim_bounds_length in Ip. auto. }
    destruct X as (st' & X & Y). exists st'. split; auto. split; auto. eapply aco_step; eauto.
  - split; [apply aco_init_inv; auto|]. cbn [ac_arch]. apply Forall_forall. intros xf Hx. apply in_sort_asc in Hx. apply in_map_iff in Hx. destruct Hx as (x & <- & Hx). simpl. rewrite Forall_forall in F. auto.
  - rewrite Es. cbn [bind]. destruct Is as (I1 & _). destruct (nth_error (ac_arch st) 0) as [b|] eqn:Eb; [|apply nth_error_None in Eb; lia]. cbn [bind]. eauto.
Qed.
End A.

(** With an archive of one ant every sampled point is the empty vector. *)
Lemma aco_single m fit ds probs z nants drs g st st' : wf_dims ds -> aco_gen m fit ds probs z nants 1 drs g st = Some st' ->
  ac_log st' = ac_log st ++ repeat [] nants.
Proof.
  intros W H. unfold aco_gen in H. apply bind_Some in H. destruct H as (means & Em & H). apply bind_Some in H. destruct H as (pos & Ep & H). cbv zeta in H.
  apply bind_Some in H. destruct H as (b & Eb & H). apply bind_Some in H. destruct H as ([ai lo] & Ea & H). inversion H; subst st'; clear H. cbn [ac_log]. f_equal.
  assert (X : forall d x, aco_ant probs z 1 ds means d = Some x -> x = []).
  { intros d x E. unfold aco_ant in E. apply bind_Some in E. destruct E as (v & Ev & E). apply bind_Some in E. destruct E as (w & Ew & E). inversion E; subst x.
    assert (V : Forall (fun a => a = NaN) v).
    { apply (traverse_Forall _ (fun _ => True) (fun a => a = NaN)) in Ev; auto; [|apply Forall_forall; auto].
      intros i j a _ Ha. unfold aco_coord in Ha. apply bind_Some in Ha. destruct Ha as (k & Ek & Ha). apply bind_Some in Ha. destruct Ha as (row & Er & Ha). apply bind_Some in Ha. destruct Ha as (y & Ey & Ha). inversion Ha. reflexivity. }
    assert (Wn : forall b i w, ensure_bounds_from i v b = Some w -> w = []).
    { induction b0 as [|[lo0 hi0] b0 IH]; intros i w0 Hw; simpl in Hw; [inversion Hw; auto|]. destruct (nth_error v i) as [a|] eqn:Ev'; [|discriminate].
      apply nth_error_In in Ev'. rewrite Forall_forall in V. rewrite (V _ Ev') in Hw. destruct (ensure_bounds_from (S i) v b0) as [t|] eqn:Et; [|discriminate].
      apply IH in Et. subst t. simpl in Hw. inversion Hw. reflexivity. }
    apply Wn in Ew. subst w. reflexivity. }
  assert (Y : forall l t ps, traverse (fun _ i => aco_ant probs z 1 ds means (drs g i)) t l = Some ps -> ps = repeat [] (length l)).
  { induction l as [|i l IH]; intros t ps H; simpl in H; [inversion H; auto|].
    apply bind_Some in H. destruct H as (b' & Eb' & H). apply bind_Some in H. destruct H as (r & Er & H). inversion H; subst. simpl. f_equal; eauto. }
  apply Y in Ep. rewrite seq_length in Ep. exact Ep.
Qed.
