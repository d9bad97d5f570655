From Coq Require Import List Arith Lia Bool Permutation.
From Verif Require Import Base BaseFacts Opt_Model Opt_Facts Opt_Facts2 Data_Model Data_Spec.
Import ListNotations.
Open Scope nat_scope.

Lemma traverse_F2 {A B} (f : A -> option B) : forall l i bs, traverse (fun _ => f) i l = Some bs <-> Forall2 (fun a b => f a = Some b) l bs.
Proof.
  induction l as [|a l IH]; intros i bs; simpl; split; intros H.
  - inversion H. constructor.
  - inversion H. reflexivity.
  - apply bind_Some in H. destruct H as (b & E & H). apply bind_Some in H. destruct H as (bs' & E2 & H). inversion H; subst. constructor; auto. eapply IH; eauto.
  - inversion H; subst. rewrite H2. cbn [bind]. replace (traverse (fun _ => f) (S i) l) with (Some l') by (symmetry; apply IH; auto). reflexivity.
Qed.
Lemma F2_len {A B} (R : A -> B -> Prop) l l' : Forall2 R l l' -> length l = length l'.
Proof. induction 1; simpl; auto. Qed.
Lemma F2_firstn {A B} (R : A -> B -> Prop) k : forall l l', Forall2 R l l' -> Forall2 R (firstn k l) (firstn k l').
Proof. induction k as [|k IH]; intros l l' H; simpl; [constructor|]. inversion H; subst; constructor; auto. Qed.
Lemma F2_skipn {A B} (R : A -> B -> Prop) k : forall l l', Forall2 R l l' -> Forall2 R (skipn k l) (skipn k l').
Proof. induction k as [|k IH]; intros l l' H; simpl; auto. inversion H; subst; auto. Qed.
Lemma F2_nth {A B} (R : A -> B -> Prop) : forall l l' i a, Forall2 R l l' -> nth_error l i = Some a -> exists b, nth_error l' i = Some b /\ R a b.
Proof. induction l as [|x l IH]; intros l' [|i] a H E; simpl in *; try discriminate; inversion H; subst; simpl; [inversion E; subst; eauto|eauto]. Qed.

Section Proofs.
Context {K A : Type} (perms : nat -> nat -> list nat).

Lemma take_rows_F2 (col : list A) inds c : take_rows col inds = Some c <-> Forall2 (fun i x => nth_error col i = Some x) inds c.
Proof. unfold take_rows. apply traverse_F2. Qed.
Lemma take_all_F2 (dm dm' : list (K * list A)) inds : take_all dm inds = Some dm' <-> picks dm inds dm'.
Proof.
  unfold take_all, picks. etransitivity; [apply (traverse_F2 (fun kc : K * list A => let* c := take_rows (snd kc) inds in Some (fst kc, c)))|]. split; intros H.
  - eapply Forall2_impl; [|exact H]. cbv beta. intros [k c] [k' c'] E. apply bind_Some in E. destruct E as (c0 & E & E2). inversion E2; subst. cbn [fst snd] in *.
    split; auto. apply take_rows_F2. auto.
  - eapply Forall2_impl; [|exact H]. cbv beta. intros [k c] [k' c'] [E1 E2]. cbn [fst snd] in *. subst k'. apply take_rows_F2 in E2. rewrite E2. reflexivity.
Qed.

(** Rows of rows. *)
Definition comp (s p : list nat) : list nat := map (fun i => nth i s 0) p.
Lemma pick_comp (col c c' : list A) s p : Forall2 (fun i x => nth_error col i = Some x) s c -> Forall2 (fun i x => nth_error c i = Some x) p c' ->
  Forall2 (fun i x => nth_error col i = Some x) (comp s p) c'.
Proof.
  intros H1 H2. unfold comp. induction H2 as [|i x p c' E _ IH]; simpl; constructor; auto.
  assert (Hi : i < length s). { rewrite (F2_len _ _ _ H1). apply nth_error_Some. congruence. }
  destruct (nth_error s i) as [j|] eqn:Ej; [|apply nth_error_None in Ej; lia]. rewrite (nth_error_nth _ _ 0 Ej).
  destruct (F2_nth _ _ _ _ _ H1 Ej) as (b & Eb & Hb). congruence.
Qed.
Lemma picks_comp (dm dm' dm'' : list (K * list A)) s p : picks dm s dm' -> picks dm' p dm'' -> picks dm (comp s p) dm''.
Proof.
  unfold picks. intros H. revert dm''. induction H as [|kc kb dm dm' [E1 E2] _ IH]; intros dm'' H2; inversion H2 as [|? y ? l' [E3 E4] H4]; subst; constructor; auto.
  split; [congruence|]. eapply pick_comp; eauto.
Qed.
Lemma comp_perm n s p : Permutation (seq 0 n) s -> Permutation (seq 0 n) p -> Permutation (seq 0 n) (comp s p).
Proof.
  intros Hs Hp. unfold comp. apply (Permutation_trans (l' := map (fun i => nth i s 0) (seq 0 n))); [|apply Permutation_map; auto].
  assert (L : length s = n) by (rewrite <- (Permutation_length Hs), seq_length; auto).
  replace (map (fun i => nth i s 0) (seq 0 n)) with s; auto. rewrite <- L. clear. symmetry.
  apply nth_ext with (d := 0) (d' := 0); [rewrite map_length, seq_length; auto|]. intros i Hi. rewrite map_length, seq_length in Hi.
  rewrite (nth_indep _ 0 (nth 0 s 0)) by (rewrite map_length, seq_length; auto). rewrite (map_nth (fun i => nth i s 0)), seq_nth; auto.
Qed.
Lemma picks_self n (dm : list (K * list A)) : Forall (fun kc => length (snd kc) = n) dm -> picks dm (seq 0 n) dm.
Proof.
  unfold picks. induction 1 as [|[k c] dm H _ IH]; constructor; auto. split; auto. cbn [snd] in *. subst n. clear.
  assert (X : forall pre, Forall2 (fun i x => nth_error (pre ++ c) i = Some x) (seq (length pre) (length c)) c).
  { induction c as [|x c IH]; intros pre; simpl; constructor.
    - rewrite nth_error_app2, Nat.sub_diag; auto.
    - specialize (IH (pre ++ [x])). rewrite <- app_assoc, app_length, Nat.add_1_r in IH. exact IH. }
  exact (X []).
Qed.
Lemma picks_slice (dm dm' : list (K * list A)) s a b : picks dm s dm' -> picks dm (firstn b (skipn a s)) (map (fun kc => (fst kc, firstn b (skipn a (snd kc)))) dm').
Proof.
  unfold picks. induction 1 as [|kc kb dm dm' [E1 E2] _ IH]; simpl; constructor; auto. cbn [fst snd]. split; auto. apply F2_firstn, F2_skipn. auto.
Qed.
Lemma take_rows_total (col : list A) p : (forall i, In i p -> i < length col) -> exists c, take_rows col p = Some c.
Proof.
  unfold take_rows. generalize 0. induction p as [|i p IH]; intros k H; simpl; eauto.
  destruct (nth_error col i) eqn:E; [|apply nth_error_None in E; specialize (H i (or_introl eq_refl)); lia]. cbn [bind].
  destruct (IH (S k)) as (c & Ec); [intros; apply H; right; auto|]. rewrite Ec. cbn [bind]. eauto.
Qed.
Lemma take_all_total n (dm : list (K * list A)) p : Forall (fun kc => length (snd kc) = n) dm -> (forall i, In i p -> i < n) -> exists dm', take_all dm p = Some dm'.
Proof.
  unfold take_all. intros F H. generalize 0. induction F as [|[k c] dm E _ IH]; intros i; simpl; eauto. cbn [snd] in E.
  destruct (take_rows_total c p) as (c' & Ec); [intros; rewrite E; auto|]. rewrite Ec. cbn [bind]. destruct (IH (S i)) as (d & Ed). rewrite Ed. cbn [bind]. eauto.
Qed.

Context (orig : list (K * list A)) (n : nat) (sh : bool).
Hypothesis T : table n orig.
Hypothesis PP : forall c k, Permutation (seq 0 k) (perms c k).

(** The columns are those of the original table, read in the order [s]. *)
Definition dinv (s : list nat) (st : dset) : Prop :=
  picks orig s (d_map st) /\ epoch n sh s /\ d_n st = n /\ d_shuffle st = sh /\ d_next st <= n.

Lemma picks_rows s (dm : list (K * list A)) : picks orig s dm -> Permutation (seq 0 n) s -> Forall (fun kc => length (snd kc) = n) dm.
Proof.
  intros H P. apply Forall_forall. intros kb Hin. assert (L : length s = n) by (rewrite <- (Permutation_length P), seq_length; auto).
  unfold picks in H. clear T PP. induction H as [|kc kb' o dm [_ E] _ IH]; [destruct Hin|]. destruct Hin as [->|Hin]; auto. rewrite <- (F2_len _ _ _ E). auto.
Qed.
Lemma perm_below c i : In i (perms c n) -> i < n.
Proof. intros H. apply (Permutation_in _ (Permutation_sym (PP c n))) in H. apply in_seq in H. lia. Qed.
Lemma shuffle_inv s st : sh = true -> dinv s st -> exists s' st', shuffle_dataset perms st = Some st' /\ dinv s' st' /\ d_next st' = d_next st.
Proof.
  intros Hsh (P & [E1 E2] & Hn & Hs & Hx). unfold shuffle_dataset. rewrite Hn.
  destruct (take_all_total n (d_map st) (perms (d_calls st) n)) as (dm & Ed); [eapply picks_rows; eauto|apply perm_below|]. rewrite Ed. cbn [bind].
  exists (comp s (perms (d_calls st) n)). eexists. split; [reflexivity|]. split; [|reflexivity]. unfold dinv. cbn [d_map d_n d_shuffle d_next]. apply take_all_F2 in Ed. split; [eapply picks_comp; eauto|].
  split; auto. split; [apply comp_perm; auto|intros; congruence].
Qed.
Lemma new_inv calls : exists s st, dataset_new perms orig sh calls = Some st /\ dinv s st /\ d_next st = 0.
Proof.
  destruct T as [Ne F]. unfold dataset_new. destruct orig as [|[k c] o] eqn:Eo; [congruence|]. rewrite <- Eo in *.
  assert (Lc : length c = n) by (rewrite Eo in F; inversion F; auto). rewrite Lc.
  assert (I0 : dinv (seq 0 n) (DSet orig sh n 0 calls)).
  { unfold dinv. cbn [d_map d_n d_shuffle d_next]. split; [apply picks_self; auto|]. repeat split; auto; lia. }
  destruct sh eqn:Hsh.
  - destruct (shuffle_inv (seq 0 n) (DSet orig true n 0 calls)) as (s & st & E & I & X); auto. eauto.
  - exists (seq 0 n). eexists. split; [reflexivity|]. auto.
Qed.

(** One batch. *)
Lemma next_inv s st b : dinv s st -> exists s' st' batch, next_batch perms st b = Some (st', batch) /\ dinv s' st' /\
  let pos := if n <=? d_next st then 0 else d_next st in
  (n <=? d_next st = false -> s' = s) /\ d_next st' = pos + min b (n - pos) /\
  picks orig (firstn (min b (n - pos)) (skipn pos s')) batch.
Proof.
  intros I. unfold next_batch. pose proof I as (P & E & Hn & Hs & Hx).
  assert (X : exists s' st', rewind perms st = Some st' /\
    dinv s' st' /\ (n <=? d_next st = false -> s' = s) /\ d_next st' = if n <=? d_next st then 0 else d_next st).
  { unfold rewind. rewrite Hn. destruct (n <=? d_next st) eqn:En.
    - cbv zeta. cbn [d_shuffle]. assert (I0 : dinv s (DSet (d_map st) (d_shuffle st) n 0 (d_calls st))).
      { unfold dinv. cbn [d_map d_n d_shuffle d_next]. repeat split; auto; try apply E; lia. }
      rewrite Hs. destruct sh eqn:Hsh.
      + rewrite Hs in I0. destruct (shuffle_inv s _ Hsh I0) as (s' & st' & Es & I' & Xn). exists s', st'. repeat split; auto; try apply I'; discriminate.
      + rewrite Hs in I0. exists s. eexists. split; [reflexivity|]. split; auto.
    - exists s, st. auto. }
  destruct X as (s' & st1 & Ex & I1 & Hss & Hpos). rewrite Ex. cbn [bind]. exists s'. do 2 eexists. split; [reflexivity|].
  pose proof I1 as (P1 & E1 & Hn1 & Hs1 & Hx1). cbv zeta. rewrite Hn1, Hpos. set (pos := if n <=? d_next st then 0 else d_next st) in *.
  split; [|split; [auto|split; [reflexivity|apply picks_slice; auto]]]. unfold dinv. cbn [d_map d_n d_shuffle d_next]. split; auto. split; auto. split; auto. split; auto. lia.
Qed.

Definition idx_inv (s : list nat) (st : @dset K A) (l : list nat) : Prop := exists ps, l = concat ps ++ firstn (d_next st) s /\ Forall (epoch n sh) ps.
Lemma batches_inv : forall sizes s st l, dinv s st -> idx_inv s st l ->
  exists st' batches idxs, next_batches perms st sizes = Some (st', batches) /\ Forall2 (picks orig) idxs batches /\
    sizes_ok n (d_next st) sizes idxs /\ exists s', dinv s' st' /\ idx_inv s' st' (l ++ concat idxs).
Proof.
  induction sizes as [|b sizes IH]; intros s st l I J; cbn [next_batches].
  - exists st, [], []. split; auto. split; [constructor|]. split; [constructor|]. exists s. simpl. rewrite app_nil_r. auto.
  - destruct (next_inv s st b I) as (s' & st1 & batch & E & I1 & H1 & H2 & H3). rewrite E. cbn [bind].
    set (pos := if n <=? d_next st then 0 else d_next st) in *. set (cur := min b (n - pos)) in *.
    set (idx := firstn cur (skipn pos s')) in *.
    assert (Ls : length s' = n) by (destruct I1 as (_ & [Pm _] & _); rewrite <- (Permutation_length Pm), seq_length; auto).
    assert (Li : length idx = cur) by (unfold idx; rewrite firstn_length, skipn_length; unfold cur; lia).
    assert (J1 : idx_inv s' st1 (l ++ idx)).
    { destruct J as (ps & El & F). unfold idx_inv. rewrite H2. destruct (n <=? d_next st) eqn:En.
      - exists (ps ++ [s]). split.
        + rewrite concat_app. simpl. rewrite app_nil_r. apply Nat.leb_le in En. rewrite El, firstn_all2; [reflexivity|].
          destruct I as (_ & [Pm _] & _). rewrite <- (Permutation_length Pm), seq_length. auto.
        + apply Forall_app. split; auto. constructor; auto. apply I.
      - pose proof (H1 eq_refl) as Es. subst s'. exists ps. split; auto. rewrite El, <- app_assoc. f_equal. unfold idx, pos. generalize cur. intros cu.
        clear. revert s. induction (d_next st) as [|k IHk]; intros s0; [reflexivity|]. destruct s0; simpl; [rewrite firstn_nil; reflexivity|]. f_equal. apply IHk. }
    destruct (IH s' st1 (l ++ idx) I1 J1) as (st' & bs & idxs & E2 & F2 & SZ & s2 & I2 & J2). rewrite E2. cbn [bind].
    exists st', (batch :: bs), (idx :: idxs). split; auto. split; [constructor; auto|]. split.
    + cbn [sizes_ok]. split; [fold pos; rewrite Li; reflexivity|]. fold pos. rewrite Li, <- H2. exact SZ.
    + exists s2. split; auto. cbn [concat]. rewrite app_assoc. exact J2.
Qed.
Theorem batches_epochs calls sizes : exists st st' batches idxs,
  dataset_new perms orig sh calls = Some st /\ next_batches perms st sizes = Some (st', batches) /\
  Forall2 (picks orig) idxs batches /\ sizes_ok n 0 sizes idxs /\ epochs n sh (concat idxs).
Proof.
  destruct (new_inv calls) as (s & st & E & I & X). destruct (batches_inv sizes s st [] I) as (st' & bs & idxs & E2 & F2 & SZ & s' & I' & J').
  { exists []. rewrite X. split; [reflexivity|constructor]. }
  exists st, st', bs, idxs. split; auto. split; auto. split; auto. rewrite X in SZ. split; auto. destruct J' as (ps & El & F). simpl in El.
  exists ps, (firstn (d_next st') s'), (skipn (d_next st') s'). split; auto. split; auto. rewrite firstn_skipn. apply I'.
Qed.

(** iterate_once. *)
Lemma next_nowrap s st b : dinv s st -> d_next st + b <= n -> 0 < b -> exists st' batch, next_batch perms st b = Some (st', batch) /\ dinv s st' /\
  d_next st' = d_next st + b /\ picks orig (firstn b (skipn (d_next st) s)) batch.
Proof.
  intros I H B. destruct (next_inv s st b I) as (s' & st' & batch & E & I' & H1 & H2 & H3). assert (En : n <=? d_next st = false) by (apply Nat.leb_gt; lia). rewrite En in *.
  rewrite (H1 eq_refl) in *. replace (min b (n - d_next st)) with b in * by lia. eauto 10.
Qed.
Lemma iterate_inv b : 0 < b -> forall m s st take, dinv s st -> (n - d_next st) / b = m ->
  exists st' batches fin idxs, iterate_loop perms st b take = Some (st', batches, fin) /\ Forall2 (picks orig) idxs batches /\ Forall (fun idx => length idx = b) idxs /\
    concat idxs = firstn (length idxs * b) (skipn (d_next st) s) /\ dinv s st' /\
    length idxs = min m take /\ fin = (m <=? take) /\ (fin = true -> d_next st' = 0) /\ (fin = false -> d_next st' = d_next st + take * b).
Proof.
  intros B. induction m as [|m IH]; intros s st take I Hm.
  - assert (Hlt : n < d_next st + b). { apply Nat.div_small_iff in Hm; lia. }
    assert (E : iterate_loop perms st b take = Some (DSet (d_map st) (d_shuffle st) (d_n st) 0 (d_calls st), [], true)).
    { pose proof I as (_ & _ & Hn & _). destruct take; cbn [iterate_loop]; rewrite Hn; (replace (d_next st + b <=? n) with false by (symmetry; apply Nat.leb_gt; lia)); reflexivity. }
    exists (DSet (d_map st) (d_shuffle st) (d_n st) 0 (d_calls st)), [], true, []. split; auto. split; [constructor|]. split; [constructor|]. split; [reflexivity|]. split.
    + destruct I as (P & Ep & Hn & Hs & Hx). unfold dinv. cbn [d_map d_n d_shuffle d_next]. repeat split; auto; try apply Ep; lia.
    + split; [reflexivity|]. split; [reflexivity|]. split; [reflexivity|discriminate].
  - assert (Hle : d_next st + b <= n).
    { destruct (le_lt_dec (d_next st + b) n); auto. exfalso. assert ((n - d_next st) / b = 0) by (apply Nat.div_small_iff; lia). lia. }
    pose proof I as (_ & _ & Hn & _). destruct take as [|take]; cbn [iterate_loop]; rewrite Hn; (replace (d_next st + b <=? n) with true by (symmetry; apply Nat.leb_le; lia)).
    + exists st, [], false, []. split; auto. split; [constructor|]. split; [constructor|]. split; [reflexivity|]. split; auto. split; [reflexivity|]. split; [reflexivity|]. split; [discriminate|]. intros _. lia.
    + destruct (next_nowrap s st b I Hle B) as (st1 & batch & E & I1 & X1 & X2). rewrite E. cbn [bind].
      assert (Hm1 : (n - d_next st1) / b = m).
      { rewrite X1. replace (n - d_next st) with ((n - (d_next st + b)) + 1 * b) in Hm by lia. rewrite Nat.div_add in Hm by lia. lia. }
      destruct (IH s st1 take I1 Hm1) as (st' & bs & fin & idxs & E2 & F2 & FL & CC & I' & LL & Ff & Z1 & Z2). rewrite E2. cbn [bind].
      assert (Ls : length s = n) by (destruct I as (_ & [Pm _] & _); rewrite <- (Permutation_length Pm), seq_length; auto).
      exists st', (batch :: bs), fin, (firstn b (skipn (d_next st) s) :: idxs). split; auto. split; [constructor; auto|]. split; [constructor; auto; rewrite firstn_length, skipn_length; lia|]. split; [|split; auto; split; [|split; [|split]]].
      * cbn [concat length]. rewrite CC, X1. change (S (length idxs) * b) with (b + length idxs * b). generalize (length idxs * b). intros q. clear.
        revert s. induction (d_next st) as [|k IHk]; intros s0.
        -- cbn [skipn Nat.add]. revert s0. induction b as [|b IHb]; intros s0; [reflexivity|]. destruct s0; simpl; [rewrite ?firstn_nil, ?skipn_nil, ?firstn_nil; reflexivity|]. f_equal. apply IHb.
        -- destruct s0; [simpl; rewrite !firstn_nil; reflexivity|]. exact (IHk s0).
      * cbn [length]. lia.
      * rewrite Ff. reflexivity.
      * auto.
      * intros Hf. rewrite (Z2 Hf), X1. lia.
Qed.
(** From a fresh data set (or after a complete pass) all full batches come, and the position is
    back at the start. *)
Theorem iterate_full s st b take : dinv s st -> d_next st = 0 -> 0 < b -> n / b <= take ->
  exists st' batches idxs, iterate_once perms st b take = Some (st', batches, true) /\ Forall2 (picks orig) idxs batches /\ Forall (fun idx => length idx = b) idxs /\
    length batches = n / b /\ (exists rest, epoch n sh (concat idxs ++ rest) /\ length rest = n mod b) /\ (exists s', dinv s' st') /\ d_next st' = 0.
Proof.
  intros I X B Tk. unfold iterate_once.
  assert (Y : exists s1 st1, (if d_shuffle st then shuffle_dataset perms st else Some st) = Some st1 /\ dinv s1 st1 /\ d_next st1 = 0).
  { pose proof I as (_ & _ & _ & Hs & _). rewrite Hs. destruct sh eqn:Hsh.
    - destruct (shuffle_inv s st Hsh I) as (s1 & st1 & E & I1 & X1). exists s1, st1. split; auto. split; auto. congruence.
    - exists s, st. auto. }
  destruct Y as (s1 & st1 & E & I1 & X1). rewrite E. cbn [bind].
  destruct (iterate_inv b B (n / b) s1 st1 take I1) as (st' & bs & fin & idxs & E2 & F2 & FL & CC & I' & LL & Ff & Z1 & Z2).
  { rewrite X1, Nat.sub_0_r. reflexivity. }
  replace (n / b <=? take) with true in Ff by (symmetry; apply Nat.leb_le; auto). subst fin. rewrite E2. exists st', bs, idxs. split; auto. split; auto. split; auto.
  split; [pose proof (F2_len _ _ _ F2) as X0; etransitivity; [symmetry; exact X0|]; lia|]. split; [|split; eauto].
  assert (Ls : length s1 = n) by (destruct I1 as (_ & [Pm _] & _); rewrite <- (Permutation_length Pm), seq_length; auto).
  exists (skipn (length idxs * b) s1). rewrite CC, X1. cbn [skipn]. rewrite firstn_skipn. split; [apply I1|].
  rewrite skipn_length, Ls, LL. rewrite (Nat.min_l (n / b) take) by auto. rewrite Nat.mul_comm. rewrite Nat.mod_eq by lia. reflexivity.
Qed.
End Proofs.
