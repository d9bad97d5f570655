From Coq Require Import List Arith ZArith QArith Lia Lqa Bool Permutation Sorted.
From Verif Require Import Base BaseFacts Space_Model Space_Spec Opt_Model Opt_Spec Opt_Facts Opt_Facts2 Pop_Model EDEV_Model EDEV_Spec EDEV_Proofs EDEV_Run.
Import ListNotations.
Open Scope nat_scope.

(** * gnR1R2 *)
Lemma below_lt n d : 0 < n -> below n d < n.
Proof. intros H. destruct n; [lia|]. apply Nat.mod_upper_bound. lia. Qed.

Lemma reject_spec fuel bad draw (P : nat -> Prop) : (forall a i, P (draw a i)) -> forall attempt r r', Forall P r -> reject fuel bad draw attempt r = Some r' ->
  length r' = length r /\ Forall P r' /\ forall i v, nth_error r' i = Some v -> bad i v = false.
Proof.
  intros HP. induction fuel as [|f IH]; intros attempt r r' F H; cbn [reject] in H;
  destruct (existsb (fun b => b) (map2 bad (seq 0 (length r)) r)) eqn:E; try discriminate.
  1, 3: inversion H; subst; split; auto; split; auto; intros i v Hi;
    destruct (bad i v) eqn:B; auto; exfalso;
    assert (X : existsb (fun b => b) (map2 bad (seq 0 (length r')) r') = true);
    [apply existsb_exists; exists true; split; auto; eapply (nth_error_In _ i); rewrite nth_error_map2;
     assert (i < length r') by (apply nth_error_Some; congruence);
     rewrite (nth_error_nth' (seq 0 (length r')) 0) by (rewrite seq_length; auto); rewrite seq_nth by auto; rewrite Hi; simpl; congruence
    |congruence].
  apply IH in H.
  - destruct H as (L & H). split; auto. rewrite L. rewrite map2_length; rewrite ?seq_length, ?combine_length, ?map2_length; rewrite ?seq_length; auto; lia.
  - apply Forall_forall. intros x Hx. apply In_nth_error in Hx. destruct Hx as (k & Ek). rewrite nth_error_map2 in Ek.
    destruct (nth_error (seq 0 (length r)) k); [|discriminate]. destruct (nth_error (combine _ r) k) as [[b y]|] eqn:Ec; [|discriminate].
    simpl in Ek. inversion Ek; subst. destruct b; auto. apply nth_error_In in Ec. apply in_combine_r in Ec. rewrite Forall_forall in F. auto.
Qed.

Local Opaque reject.
Lemma jade_donors n all d1 d2 r1 r2 : 2 <= n -> n <= all -> gnR1R2 n (n - 1) (all - 1) d1 d2 = Some (r1, r2) -> jade_donors_ok n all r1 r2.
Proof.
  intros Hn Ha H. unfold gnR1R2 in H. apply bind_Some in H. destruct H as (r1' & E1 & H).
  apply bind_Some in H. destruct H as (r2' & E2 & H). inversion H; subst. clear H.
  apply (reject_spec _ _ _ (fun v => 1 <= v < n)) in E1.
  - apply (reject_spec _ _ _ (fun v => 1 <= v < all)) in E2.
    + destruct E1 as (L1 & F1 & B1). destruct E2 as (L2 & F2 & B2). rewrite map_length, seq_length in L1, L2.
      split; auto. split; auto. intros i a b Ia Ib.
      specialize (B1 i a Ia). specialize (B2 i b Ib). apply Nat.eqb_neq in B1. apply orb_false_iff in B2. destruct B2 as [B2 B3].
      apply Nat.eqb_neq in B2. apply Nat.eqb_neq in B3. rewrite (nth_error_nth _ _ 0 Ia) in B2.
      rewrite Forall_forall in F1, F2. pose proof (F1 a (nth_error_In _ _ Ia)). pose proof (F2 b (nth_error_In _ _ Ib)).
      repeat (split; auto).
    + intros a i. pose proof (below_lt (all - 1) (d2 a i)). lia.
    + apply Forall_forall. intros v Hv. apply in_map_iff in Hv. destruct Hv as (i & <- & _). pose proof (below_lt (all - 1) (d2 0 i)). lia.
  - intros a i. pose proof (below_lt (n - 1) (d1 a i)). lia.
  - apply Forall_forall. intros v Hv. apply in_map_iff in Hv. destruct Hv as (i & <- & _). pose proof (below_lt (n - 1) (d1 0 i)). lia.
Qed.

(** * The donors of CoDE *)
Lemma donors_spec ds : forall set size ix, NoDup set -> donors set size ds = Some ix ->
  length ix = length ds /\ NoDup ix /\ incl ix (tl set).
Proof.
  induction ds as [|d ds IH]; intros set size ix N H; cbn [donors] in H.
  - inversion H; subst. split; auto. split; [constructor|intros x []].
  - apply bind_Some in H. destruct H as (x & Ex & H). apply bind_Some in H. destruct H as (rest & Er & H). inversion H; subst.
    set (t := below size d + 1) in *.
    pose proof (remove_at_perm _ _ _ Ex) as P.
    assert (N' : NoDup (x :: remove_at set t)) by (eapply Permutation_NoDup; eauto).
    inversion N' as [|? ? NI N'']; subst.
    destruct (IH _ _ _ N'' Er) as (L & NR & I).
    destruct set as [|s0 set]; [destruct t; discriminate|].
    assert (Et : exists t', t = S t') by (exists (below size d); unfold t; lia). destruct Et as (t' & Et). rewrite Et in *.
    cbn [nth_error remove_at tl] in *.
    split; [simpl; auto|]. split.
    + constructor; auto. intros Hx. apply I in Hx. apply NI. right. auto.
    + intros z [<-|Hz]; [eapply nth_error_In; eauto|]. apply I in Hz.
      apply (Permutation_in _ (Permutation_sym (remove_at_perm _ _ _ Ex))). right; auto.
Qed.
Lemma donors_total ds : forall set size, length set = S size -> length ds <= size -> exists ix, donors set size ds = Some ix.
Proof.
  induction ds as [|d ds IH]; intros set size L H; cbn [donors]; [eauto|]. simpl in H.
  destruct (nth_of_lt set (below size d + 1)) as (x & Ex). { pose proof (below_lt size d). lia. }
  rewrite Ex. cbn [bind]. destruct (IH (remove_at set (below size d + 1)) (size - 1)) as (ix & E).
  - rewrite remove_at_length; [lia|]. apply nth_error_Some. congruence.
  - lia.
  - rewrite E. cbn [bind]. eauto.
Qed.
Lemma nth_remove_at {A} (l : list A) : forall i j, nth_error (remove_at l i) j = nth_error l (if j <? i then j else S j).
Proof.
  induction l as [|a l IH]; intros i j.
  - destruct (j <? i); destruct i, j; auto.
  - destruct i; [reflexivity|]. destruct j; [reflexivity|]. cbn [remove_at nth_error]. rewrite IH.
    change (S j <? S i) with (j <? i). destruct (j <? i); auto.
Qed.
Lemma code_donors n i ds ix : i < n -> donors (remove_at (seq 0 n) i) (n - 2) ds = Some ix ->
  length ix = length ds /\ NoDup ix /\ Forall (fun k => k < n /\ k <> i /\ k <> (if i =? 0 then 1 else 0)) ix.
Proof.
  intros Hi H.
  assert (E0 : nth_error (seq 0 n) i = Some i). { rewrite (nth_error_nth' _ 0) by (rewrite seq_length; auto). rewrite seq_nth; auto. }
  pose proof (remove_at_perm _ _ _ E0) as P.
  assert (N : NoDup (i :: remove_at (seq 0 n) i)) by (eapply Permutation_NoDup; [exact P|apply seq_NoDup]).
  inversion N as [|? ? NI N']; subst. destruct (donors_spec _ _ _ _ N' H) as (L & NX & I). split; auto. split; auto.
  apply Forall_forall. intros k Hk. apply I in Hk.
  assert (Hk' : In k (remove_at (seq 0 n) i)). { destruct (remove_at (seq 0 n) i); [destruct Hk|right; exact Hk]. }
  split.
  { assert (In k (seq 0 n)) by (eapply Permutation_in; [apply Permutation_sym; exact P|right; auto]). apply in_seq in H0. lia. }
  split; [intros ->; auto|].
  pose proof (nth_remove_at (seq 0 n) i 0) as E. destruct (remove_at (seq 0 n) i) as [|h set] eqn:ER; [destruct Hk|].
  cbn [nth_error tl] in *. inversion N' as [|? ? NH _]; subst.
  assert (Lh : length (seq 0 n) = n) by apply seq_length.
  assert (n1 : length (h :: set) = n - 1). { rewrite <- ER, remove_at_length; rewrite seq_length; auto. }
  destruct i as [|i].
  - change (0 <? 0) with false in E. cbv iota in E.
    assert (1 < n). { simpl in n1. destruct set; [destruct Hk|]. simpl in n1. lia. }
    rewrite (nth_error_nth' _ 0) in E by (rewrite seq_length; simpl in n1; lia). rewrite seq_nth in E by (simpl in n1; lia).
    inversion E; subst. simpl. intros ->; auto.
  - change (0 <? S i) with true in E. cbv iota in E. rewrite (nth_error_nth' _ 0) in E by (rewrite seq_length; lia). rewrite seq_nth in E by lia.
    inversion E; subst. simpl. intros ->; auto.
Qed.

(** * The archive *)
Lemma row_cmp_eq a : forall b, row_cmp a b = Eq <-> Forall2 Qeq a b.
Proof.
  induction a as [|x a IH]; intros [|y b]; cbn [row_cmp]; split; intros H; try discriminate; try (inversion H; fail); auto.
  - destruct (Qcompare x y) eqn:E; try discriminate. apply Qeq_alt in E. constructor; auto. apply IH; auto.
  - inversion H as [|? ? ? ? E H']; subst. rewrite (proj1 (Qeq_alt x y)) by auto. apply IH; auto.
Qed.
Lemma row_cmp_lt_trans a : forall b c, row_cmp a b = Lt -> row_cmp b c = Lt -> row_cmp a c = Lt.
Proof.
  induction a as [|x a IH]; intros [|y b] [|z c] H1 H2; cbn [row_cmp] in *; auto; try discriminate.
  destruct (Qcompare x y) eqn:E1; destruct (Qcompare y z) eqn:E2; try discriminate.
  - apply Qeq_alt in E1. apply Qeq_alt in E2. rewrite (proj1 (Qeq_alt x z)) by lra. eauto.
  - apply Qeq_alt in E1. apply Qlt_alt in E2. rewrite (proj1 (Qlt_alt x z)) by lra. auto.
  - apply Qlt_alt in E1. apply Qeq_alt in E2. rewrite (proj1 (Qlt_alt x z)) by lra. auto.
  - apply Qlt_alt in E1. apply Qlt_alt in E2. rewrite (proj1 (Qlt_alt x z)) by lra. auto.
Qed.
Lemma row_cmp_gt a : forall b, row_cmp a b = Gt <-> row_cmp b a = Lt.
Proof.
  induction a as [|x a IH]; intros [|y b]; cbn [row_cmp]; split; intros H; try discriminate; auto.
  - destruct (Qcompare x y) eqn:E; try discriminate.
    + apply Qeq_alt in E. rewrite (proj1 (Qeq_alt y x)) by lra. apply IH; auto.
    + apply Qgt_alt in E. rewrite (proj1 (Qlt_alt y x)) by lra. auto.
  - destruct (Qcompare y x) eqn:E; try discriminate.
    + apply Qeq_alt in E. rewrite (proj1 (Qeq_alt x y)) by lra. apply IH; auto.
    + apply Qlt_alt in E. rewrite (proj1 (Qgt_alt x y)) by lra. auto.
Qed.
Notation before := (fun e f : list Q * Q => row_cmp (fst e) (fst f) = Lt).
Lemma uniq_insert_in e : forall l z, In z (uniq_insert e l) -> z = e \/ In z l.
Proof.
  induction l as [|f l IH]; intros z H; simpl in H.
  - destruct H as [<-|[]]; auto.
  - destruct (row_cmp (fst e) (fst f)); simpl in H |- *; [tauto|intuition auto|].
    destruct H as [<-|H]; auto. apply IH in H. tauto.
Qed.
Lemma uniq_insert_keeps e : forall l z, In z l -> In z (uniq_insert e l).
Proof. induction l as [|f l IH]; intros z H; simpl in *; [tauto|]. destruct (row_cmp _ _); simpl; intuition auto. Qed.
Lemma uniq_insert_has e : forall l, exists f, In f (uniq_insert e l) /\ Forall2 Qeq (fst e) (fst f).
Proof.
  induction l as [|f l IH]; simpl.
  - exists e. split; [left; auto|apply Forall2_Qeq_refl].
  - destruct (row_cmp (fst e) (fst f)) eqn:E.
    + exists f. split; [left; auto|]. apply row_cmp_eq; auto.
    + exists e. split; [left; auto|apply Forall2_Qeq_refl].
    + destruct IH as (h & H1 & H2). exists h. split; [right; auto|auto].
Qed.
Lemma uniq_insert_sorted e : forall l, StronglySorted before l -> StronglySorted before (uniq_insert e l).
Proof.
  induction l as [|f l IH]; intros H; simpl; [repeat constructor|]. inversion H as [|? ? Hs Hf]; subst.
  destruct (row_cmp (fst e) (fst f)) eqn:E; auto.
  - constructor; auto. constructor; auto. eapply Forall_impl; [|exact Hf]. cbv beta. intros h Hh. eapply row_cmp_lt_trans; eauto.
  - constructor; auto. apply Forall_forall. intros z Hz. apply uniq_insert_in in Hz. destruct Hz as [->|Hz].
    + apply row_cmp_gt. auto.
    + rewrite Forall_forall in Hf. auto.
Qed.
Lemma uniq_spec l : StronglySorted before (uniq l) /\ incl (uniq l) l /\ (forall e, In e l -> exists f, In f (uniq l) /\ Forall2 Qeq (fst e) (fst f)).
Proof.
  unfold uniq.
  assert (X : forall acc, StronglySorted before acc -> let u := fold_left (fun acc e => uniq_insert e acc) l acc in
    StronglySorted before u /\ incl acc u /\ (forall z, In z u -> In z acc \/ In z l) /\
    (forall e, In e l -> exists f, In f u /\ Forall2 Qeq (fst e) (fst f))).
  { induction l as [|e l IH]; intros acc S; cbn [fold_left].
    - split; auto. split; [intros z; auto|]. split; [auto|]. intros e [].
    - destruct (IH (uniq_insert e acc) (uniq_insert_sorted e acc S)) as (I1 & I2 & I3 & I4). cbv zeta in *. split; auto. split.
      { intros z Hz. apply I2. apply uniq_insert_keeps; auto. }
      split.
      { intros z Hz. apply I3 in Hz. destruct Hz as [Hz|Hz]; [|right; right; auto]. apply uniq_insert_in in Hz. destruct Hz as [->|Hz]; auto. right; left; auto. }
      { intros e' [<-|He]; auto. destruct (uniq_insert_has e acc) as (f & F1 & F2). exists f. split; auto. } }
  destruct (X [] (SSorted_nil _)) as (I1 & I2 & I3 & I4). split; auto. split; auto. intros z Hz. apply I3 in Hz. destruct Hz as [[]|Hz]; auto.
Qed.
Lemma sorted_distinct (l : list (list Q * Q)) : StronglySorted before l -> distinct_rows (map fst l).
Proof.
  intros H. assert (X : forall i j a b, i < j -> nth_error (map fst l) i = Some a -> nth_error (map fst l) j = Some b -> row_cmp a b = Lt).
  { induction H as [|e l H IH F]; intros i j a b Hij Ha Hb; [destruct i; discriminate|].
    destruct j as [|j]; [lia|]. destruct i as [|i]; simpl in Ha, Hb.
    - inversion Ha; subst. apply nth_error_In in Hb. apply in_map_iff in Hb. destruct Hb as (f & <- & Hf).
      rewrite Forall_forall in F. apply (F f Hf).
    - eapply (IH i j); eauto. lia. }
  intros i j a b Hij Ha Hb E. apply row_cmp_eq in E.
  destruct (Nat.lt_ge_cases i j).
  - rewrite (X i j a b) in E by auto. discriminate.
  - assert (C : row_cmp b a = Lt) by (apply (X j i); auto; lia). apply row_cmp_gt in C. congruence.
Qed.
Lemma gather_distinct idx (l r : list (list Q * Q)) : NoDup idx -> gather idx l = Some r -> distinct_rows (map fst l) -> distinct_rows (map fst r).
Proof.
  intros N G H i j a b Hij Ha Hb. rewrite nth_error_map in Ha, Hb.
  destruct (nth_error r i) as [e|] eqn:Ei; [|discriminate]. destruct (nth_error r j) as [f|] eqn:Ej; [|discriminate].
  simpl in Ha, Hb. inversion Ha; inversion Hb; subst.
  pose proof (gather_length _ _ _ G) as L.
  destruct (nth_of_lt idx i) as (p & Ep). { rewrite <- L. apply nth_error_Some. congruence. }
  destruct (nth_of_lt idx j) as (q & Eq). { rewrite <- L. apply nth_error_Some. congruence. }
  pose proof (gather_nth _ _ _ _ _ G Ep) as Gp. pose proof (gather_nth _ _ _ _ _ G Eq) as Gq. rewrite Ei in Gp. rewrite Ej in Gq.
  apply (H p q).
  - intros ->. apply Hij. apply (proj1 (NoDup_nth_error idx) N i j).
    + apply nth_error_Some. congruence.
    + congruence.
  - rewrite nth_error_map, <- Gp. auto.
  - rewrite nth_error_map, <- Gq. auto.
Qed.
Lemma archive_ok cap perm arch new arch' : (forall n, Permutation (perm n) (seq 0 n)) -> update_archive cap perm arch new = Some arch' ->
  length arch' <= cap /\ distinct_rows (map fst arch') /\ incl arch' (arch ++ new) /\
  (length (uniq (arch ++ new)) <= cap -> forall e, In e (arch ++ new) -> exists f, In f arch' /\ Forall2 Qeq (fst e) (fst f)).
Proof.
  intros HP H. unfold update_archive in H. destruct (uniq_spec (arch ++ new)) as (U1 & U2 & U3).
  destruct (cap <? length (uniq (arch ++ new))) eqn:E.
  - apply Nat.ltb_lt in E. split.
    { rewrite (gather_length _ _ _ H), firstn_length. lia. }
    split.
    { eapply gather_distinct; [|exact H|apply sorted_distinct; auto].
      assert (N : NoDup (perm (length (uniq (arch ++ new))))) by (eapply Permutation_NoDup; [apply Permutation_sym; apply HP|apply seq_NoDup]).
      rewrite <- (firstn_skipn cap (perm _)) in N. eapply NoDup_app_l; exact N. }
    split; [|lia]. intros z Hz. apply U2. eapply gather_In; eauto.
  - apply Nat.ltb_ge in E. inversion H; subst. split; auto. split; [apply sorted_distinct; auto|]. split; auto.
Qed.
Lemma archive_total cap perm arch new : (forall n, Permutation (perm n) (seq 0 n)) -> exists a, update_archive cap perm arch new = Some a.
Proof.
  intros HP. unfold update_archive. destruct (cap <? _); eauto. apply gather_total.
  apply Forall_forall. intros i Hi. apply in_firstn in Hi. apply (Permutation_in _ (HP _)) in Hi. apply in_seq in Hi. lia.
Qed.

Lemma uniq_insert_le e l : length (uniq_insert e l) <= S (length l).
Proof. induction l as [|f l IH]; simpl; auto. destruct (row_cmp _ _); simpl; lia. Qed.
Lemma uniq_fold_le l : forall acc, length (fold_left (fun acc e => uniq_insert e acc) l acc) <= length l + length acc.
Proof.
  induction l as [|e l IH]; intros acc; simpl; auto. pose proof (IH (uniq_insert e acc)). pose proof (uniq_insert_le e acc). lia.
Qed.
Lemma archive_keeps cap perm arch new arch' : (forall n, Permutation (perm n) (seq 0 n)) -> update_archive cap perm arch new = Some arch' ->
  length (arch ++ new) <= cap -> forall e, In e (arch ++ new) -> exists f, In f arch' /\ Forall2 Qeq (fst e) (fst f).
Proof.
  intros HP H L. apply (archive_ok _ _ _ _ _ HP H). unfold uniq. pose proof (uniq_fold_le (arch ++ new) []). simpl in *. lia.
Qed.
Lemma archive_all cap perm arch new : (forall n, Permutation (perm n) (seq 0 n)) ->
  exists arch', update_archive cap perm arch new = Some arch' /\
    length arch' <= cap /\ distinct_rows (map fst arch') /\ incl arch' (arch ++ new) /\
    (length (arch ++ new) <= cap -> forall e, In e (arch ++ new) -> exists f, In f arch' /\ Forall2 Qeq (fst e) (fst f)).
Proof.
  intros HP. destruct (archive_total cap perm arch new HP) as (a & E). exists a. split; auto.
  destruct (archive_ok _ _ _ _ _ HP E) as (A & B & C & _). split; auto. split; auto. split; auto. exact (archive_keeps _ _ _ _ _ HP E).
Qed.
Lemma code_donors_total n i draws : i < n -> length draws <= n - 2 ->
  exists ix, donors (remove_at (seq 0 n) i) (n - 2) draws = Some ix.
Proof.
  intros Hi L. destruct draws as [|d draws]; [simpl; eauto|]. simpl in L. apply donors_total; [|simpl; auto].
  rewrite remove_at_length; rewrite seq_length; lia.
Qed.
