(** iterbatches, subset. *)
From Coq Require Import List Arith Lia Bool Permutation.
From Verif Require Import Base BaseFacts Opt_Model Opt_Facts Opt_Facts2 Data_Model Data_Spec Data_Proofs.
Import ListNotations.
Open Scope nat_scope.

(** Cutting a list by positions or in parts loses nothing. *)
Lemma skipn_split {X} (l : list X) : forall a b, a <= b -> skipn a l = firstn (b - a) (skipn a l) ++ skipn b l.
Proof.
  intros a b H. rewrite <- (firstn_skipn (b - a) (skipn a l)) at 1. f_equal.
  revert a b H. induction l as [|x l IH]; intros a b H; [rewrite !skipn_nil; reflexivity|]. destruct a as [|a].
  - rewrite Nat.sub_0_r. reflexivity.
  - destruct b as [|b]; [lia|]. cbn [skipn]. replace (S b - S a) with (b - a) by lia. apply IH. lia.
Qed.
Fixpoint ascending (from : nat) (sections : list nat) : Prop := match sections with [] => True | s :: r => from <= s /\ ascending s r end.
Lemma split_at_concat l : forall sections from, ascending from sections -> concat (split_at l from sections) = skipn from l.
Proof.
  induction sections as [|s r IH]; intros from H; cbn [split_at concat]; [apply app_nil_r|]. destruct H as [H1 H2]. rewrite (IH s H2). symmetry. apply skipn_split. auto.
Qed.
Lemma ascending_mult b : forall m k, ascending (k * b) (map (fun i => (i + 1) * b) (seq k m)).
Proof. induction m as [|m IH]; intros k; cbn [seq map ascending]; [exact I|]. split; [nia|]. replace (k + 1) with (S k) by lia. apply IH. Qed.
(** Chunks of [b], the last one shorter. *)
Lemma split_at_sizes b l : 0 < b -> forall m k, (k + m) * b < length l \/ m = 0 -> k * b + m * b <= length l -> length l <= (k + m + 1) * b ->
  exists full rest, split_at l (k * b) (map (fun i => (i + 1) * b) (seq k m)) = full ++ [rest] /\ Forall (fun p => length p = b) full /\ length full = m /\ length rest = length l - (k + m) * b.
Proof.
  intros B. induction m as [|m IH]; intros k H H0 H1; cbn [seq map split_at].
  - exists [], (skipn (k * b) l). rewrite skipn_length, Nat.add_0_r. repeat split; auto.
  - destruct (IH (S k)) as (full & rest & E & F & L & R); [left; nia|nia|nia|].
    replace (k + 1) with (S k) by lia. rewrite E. exists (firstn (S k * b - k * b) (skipn (k * b) l) :: full), rest.
    split; [reflexivity|]. split; [constructor; auto; rewrite firstn_length, skipn_length; nia|]. cbn [length]. split; [lia|]. rewrite R. nia.
Qed.
Lemma split_parts_concat l k parts : split_parts l k = Some parts -> concat parts = l /\ length parts = k /\
  Forall (fun p => length p = length l / k \/ length p = length l / k + 1) parts.
Proof.
  unfold split_parts. destruct k as [|k]; [discriminate|]. intros E. apply (f_equal (fun o => match o with Some x => x | None => [] end)) in E. cbv beta iota zeta in E. subst parts. set (q := length l / S k). set (r := length l mod S k).
  assert (D : length l = S k * q + r) by (apply Nat.div_mod; lia). assert (R : r < S k) by (apply Nat.mod_upper_bound; lia).
  assert (X : forall m j, j + m <= S k -> concat (map (fun i => firstn (q + if i <? r then 1 else 0) (skipn (i * q + min i r) l)) (seq j m)) ++ skipn ((j + m) * q + min (j + m) r) l = skipn (j * q + min j r) l).
  { induction m as [|m IH]; intros j Hj; cbn [seq map concat app].
    - rewrite Nat.add_0_r. reflexivity.
    - rewrite <- app_assoc. replace (j + S m) with (S j + m) by lia. rewrite IH by lia. etransitivity; [|symmetry; apply (skipn_split l (j * q + min j r) (S j * q + min (S j) r)); nia].
      f_equal. f_equal. destruct (j <? r) eqn:Ej; [apply Nat.ltb_lt in Ej|apply Nat.ltb_ge in Ej]; nia. }
  split; [|split].
  - specialize (X (S k) 0 ltac:(lia)). rewrite (skipn_all2 (n := (0 + S k) * q + min (0 + S k) r)) in X by nia. rewrite app_nil_r in X. exact X.
  - rewrite map_length, seq_length. reflexivity.
  - apply Forall_forall. intros p Hp. apply in_map_iff in Hp. destruct Hp as (i & Ep & Hi). apply in_seq in Hi. subst p. rewrite firstn_length, skipn_length.
    destruct (i <? r) eqn:Ei; [apply Nat.ltb_lt in Ei; right|apply Nat.ltb_ge in Ei; left]; nia.
Qed.

Section Iter.
Context {A : Type} (perms : nat -> nat -> list nat).
Lemma arrays_picks (arrays : list (list A)) p b : traverse (fun _ a => take_rows a p) 0 arrays = Some b <-> picks_arrays arrays p b.
Proof.
  unfold picks_arrays. etransitivity; [apply (traverse_F2 (fun a => take_rows a p))|].
  split; intros H; (eapply Forall2_impl; [|exact H]); cbv beta; intros c x; apply take_rows_F2.
Qed.
Lemma batches_picks (arrays : list (list A)) ps bs : traverse (fun _ p => traverse (fun _ a => take_rows a p) 0 arrays) 0 ps = Some bs <-> Forall2 (picks_arrays arrays) ps bs.
Proof.
  etransitivity; [apply (traverse_F2 (fun p => traverse (fun _ a => take_rows a p) 0 arrays))|].
  split; intros H; (eapply Forall2_impl; [|exact H]); cbv beta; intros c x; apply arrays_picks.
Qed.
Lemma arrays_total n (arrays : list (list A)) p : Forall (fun a => length a = n) arrays -> (forall i, In i p -> i < n) -> exists b, traverse (fun _ a => take_rows a p) 0 arrays = Some b.
Proof.
  intros F H. generalize 0. induction F as [|a l E _ IH]; intros i; cbn [traverse]; eauto.
  destruct (take_rows_total a p) as (c & Ec); [intros; rewrite E; auto|]. rewrite Ec. cbn [bind]. destruct (IH (S i)) as (b & Eb). rewrite Eb. cbn [bind]. eauto.
Qed.
Lemma batches_total n (arrays : list (list A)) ps : Forall (fun a => length a = n) arrays -> (forall p i, In p ps -> In i p -> i < n) ->
  exists bs, traverse (fun _ p => traverse (fun _ a => take_rows a p) 0 arrays) 0 ps = Some bs.
Proof.
  intros F H. cut (forall k, exists bs, traverse (fun _ p => traverse (fun _ a => take_rows a p) 0 arrays) k ps = Some bs); [auto|].
  induction ps as [|p ps IH]; intros k; cbn [traverse]; eauto.
  destruct (arrays_total n arrays p F) as (b & Eb); [intros; apply (H p); auto; left; auto|]. rewrite Eb. cbn [bind].
  destruct (IH (fun q i Hq => H q i (or_intror Hq)) (S k)) as (bs & Ebs). rewrite Ebs. cbn [bind]. eauto.
Qed.

Context (arrays : list (list A)) (n : nat) (sh : bool).
Hypothesis Ne : arrays <> [].
Hypothesis F : Forall (fun a => length a = n) arrays.
Hypothesis PP : forall c k, Permutation (seq 0 k) (perms c k).
Let inds : list nat := if sh then perms 0 n else seq 0 n.
Lemma inds_epoch : epoch n sh inds.
Proof. unfold epoch, inds. destruct sh; split; auto; discriminate. Qed.
Lemma iter_parts by_ final parts :
  match by_ with NumBatches k => split_parts inds k | BatchSize b => if b =? 0 then None else Some (split_at inds 0 (arange_tail n b)) end = Some parts ->
  concat parts = inds ->
  exists bs, iterbatches perms arrays by_ sh final = Some bs /\
    Forall2 (picks_arrays arrays) (filter (fun p => final || match by_ with NumBatches _ => false | BatchSize b => length p =? b end) parts) bs.
Proof.
  intros E C. unfold iterbatches. destruct arrays as [|a0 ar] eqn:Ea; [congruence|]. rewrite <- Ea in *. replace (nth_error arrays 0) with (Some a0) by (rewrite Ea; reflexivity). cbn [bind].
  assert (L0 : length a0 = n) by (rewrite Ea in F; exact (Forall_inv F)). rewrite L0.
  replace (forallb (fun a => length a =? n) (tl arrays)) with true.
  2: { symmetry. apply forallb_forall. intros a Ha. apply Nat.eqb_eq. rewrite Forall_forall in F. apply F. rewrite Ea in *. right. exact Ha. }
  cbn [negb]. fold inds. rewrite E. cbn [bind].
  match goal with |- context [filter ?f parts] => set (ps := filter f parts) end.
  destruct (batches_total n arrays ps F) as (bs & Ebs).
  { intros p i Hp Hi. apply filter_In in Hp. destruct Hp as [Hp _]. assert (X : In i (concat parts)) by (apply in_concat; eauto). rewrite C in X.
    apply (Permutation_in _ (Permutation_sym (proj1 inds_epoch))) in X. apply in_seq in X. lia. }
  exists bs. split; auto. apply batches_picks. auto.
Qed.
Lemma inds_len : length inds = n.
Proof. destruct inds_epoch as [P _]. rewrite <- (Permutation_length P), seq_length. auto. Qed.
Lemma filter_true {X} (l : list X) : filter (fun _ => true) l = l.
Proof. induction l; simpl; congruence. Qed.

Theorem iter_size b : 0 < b -> 0 < n -> exists bs idxs, iterbatches perms arrays (BatchSize b) sh true = Some bs /\ Forall2 (picks_arrays arrays) idxs bs /\ epoch n sh (concat idxs) /\
  exists full rest, idxs = full ++ [rest] /\ Forall (fun p => length p = b) full /\ 0 < length rest <= b.
Proof.
  intros B N. assert (D : n - 1 = b * ((n - 1) / b) + (n - 1) mod b) by (apply Nat.div_mod; lia). assert (M : (n - 1) mod b < b) by (apply Nat.mod_upper_bound; lia).
  destruct (iter_parts (BatchSize b) true (split_at inds 0 (arange_tail n b))) as (bs & E & F2).
  { destruct (b =? 0) eqn:Eb; auto. apply Nat.eqb_eq in Eb. lia. }
  { unfold arange_tail. rewrite (split_at_concat inds _ 0); [reflexivity|]. apply (ascending_mult b _ 0). }
  cbn [orb] in F2. rewrite filter_true in F2. exists bs. eexists. split; [exact E|]. split; [exact F2|]. split.
  - unfold arange_tail. rewrite split_at_concat by apply (ascending_mult b _ 0). apply inds_epoch.
  - unfold arange_tail. destruct (split_at_sizes b inds B ((n - 1) / b) 0) as (full & rest & Es & Ff & L & R); rewrite ?inds_len; try nia.
    exists full, rest. split; [exact Es|]. split; auto. rewrite R, inds_len. nia.
Qed.
(** Without the final partial batch only full ones are left, and fewer than a batch of rows is dropped. *)
Theorem iter_full b : 0 < b -> 0 < n -> exists bs idxs rest, iterbatches perms arrays (BatchSize b) sh false = Some bs /\ Forall2 (picks_arrays arrays) idxs bs /\
  Forall (fun p => length p = b) idxs /\ epoch n sh (concat idxs ++ rest) /\ length rest < b.
Proof.
  intros B N. assert (D : n - 1 = b * ((n - 1) / b) + (n - 1) mod b) by (apply Nat.div_mod; lia). assert (M : (n - 1) mod b < b) by (apply Nat.mod_upper_bound; lia).
  destruct (iter_parts (BatchSize b) false (split_at inds 0 (arange_tail n b))) as (bs & E & F2).
  { destruct (b =? 0) eqn:Eb; auto. apply Nat.eqb_eq in Eb. lia. }
  { unfold arange_tail. rewrite (split_at_concat inds _ 0); [reflexivity|]. apply (ascending_mult b _ 0). }
  cbn [orb] in F2.
  destruct (split_at_sizes b inds B ((n - 1) / b) 0) as (full & rest & Es & Ff & L & R); rewrite ?inds_len; try nia. rewrite inds_len in R.
  assert (C : concat (full ++ [rest]) = inds). { rewrite <- Es. rewrite (split_at_concat inds _ 0); [reflexivity|]. apply (ascending_mult b _ 0). }
  change (split_at inds 0 (arange_tail n b)) with (split_at inds (0 * b) (map (fun i => (i + 1) * b) (seq 0 ((n - 1) / b)))) in F2. rewrite Es in F2.
  assert (Fl : filter (fun p : list nat => length p =? b) full = full).
  { clear - Ff. induction Ff as [|p l H _ IH]; simpl; auto. rewrite H, Nat.eqb_refl. congruence. }
  rewrite filter_app, Fl in F2. cbn [filter] in F2. rewrite concat_app in C. cbn [concat] in C. rewrite app_nil_r in C.
  destruct (length rest =? b) eqn:Er.
  - apply Nat.eqb_eq in Er. exists bs, (full ++ [rest]), []. split; auto. split; auto. split; [apply Forall_app; split; auto|].
    rewrite app_nil_r, concat_app. cbn [concat]. rewrite app_nil_r, C. split; [apply inds_epoch|simpl; lia].
  - apply Nat.eqb_neq in Er. rewrite app_nil_r in F2. exists bs, full, rest. split; auto. split; auto. split; auto. rewrite C. split; [apply inds_epoch|]. nia.
Qed.
Theorem iter_num k : 0 < k -> exists bs idxs, iterbatches perms arrays (NumBatches k) sh true = Some bs /\ Forall2 (picks_arrays arrays) idxs bs /\ epoch n sh (concat idxs) /\
  length bs = k /\ Forall (fun p => length p = n / k \/ length p = n / k + 1) idxs.
Proof.
  intros Hk. destruct (split_parts inds k) as [parts|] eqn:E; [|destruct k; [lia|discriminate]].
  destruct (split_parts_concat _ _ _ E) as (C & L & Fs). rewrite inds_len in Fs. destruct (iter_parts (NumBatches k) true parts E C) as (bs & Eb & F2). cbn [orb] in F2. rewrite filter_true in F2.
  exists bs, parts. split; auto. split; auto. rewrite C. split; [apply inds_epoch|]. split; auto. rewrite <- L. symmetry. exact (F2_len _ _ _ F2).
Qed.
(** Asking for a number of batches and no partial one gives none at all. *)
Theorem iter_num_nothing k : 0 < k -> iterbatches perms arrays (NumBatches k) sh false = Some [].
Proof.
  intros Hk. destruct (split_parts inds k) as [parts|] eqn:E; [|destruct k; [lia|discriminate]].
  destruct (split_parts_concat _ _ _ E) as (C & _ & _). destruct (iter_parts (NumBatches k) false parts E C) as (bs & Eb & F2). cbn [orb] in F2.
  replace (filter (fun _ : list nat => false) parts) with (@nil (list nat)) in F2 by (clear; induction parts; auto). inversion F2; subst. auto.
Qed.
End Iter.

(** subset keeps the first rows, in all columns. *)
Lemma firstn_seq_epoch (s : list nat) m : firstn m s = comp s (seq 0 (min m (length s))).
Proof.
  unfold comp. revert m. induction s as [|x s IH]; intros [|m]; try reflexivity. cbn [firstn length Nat.min seq map]. f_equal. rewrite IH, <- seq_shift, map_map. reflexivity.
Qed.
Theorem subset_rows {K A} perms (orig : list (K * list A)) n sh s st m sh2 : table n orig -> dinv orig n sh s st ->
  (forall c k, Permutation (seq 0 k) (perms c k)) ->
  exists st2 idx, subset perms st m sh2 = Some st2 /\ picks orig idx (d_map st2) /\ Permutation (firstn m s) idx /\ (sh2 = false -> idx = firstn m s) /\ d_next st2 = 0.
Proof.
  intros [Ne F] (P & [Pm Id] & Hn & Hs & Hx) PP. unfold subset. assert (L : length s = n) by (rewrite <- (Permutation_length Pm), seq_length; auto).
  set (sub := map (fun kc => (fst kc, firstn m (snd kc))) (d_map st)).
  assert (Ps : picks orig (firstn m s) sub) by (apply (picks_slice orig (d_map st) s 0 m); auto).
  assert (Ts : table (min m n) sub).
  { split.
    - unfold sub, picks in *. destruct (d_map st) eqn:Ed; [|discriminate]. inversion P. congruence.
    - apply Forall_forall. intros kb Hin. unfold picks in Ps. clear - Ps Hin L. induction Ps as [|a b o l [_ E] _ IH]; [destruct Hin|]. destruct Hin as [->|Hin]; auto.
      rewrite <- (F2_len _ _ _ E), firstn_length, L. reflexivity. }
  destruct (new_inv perms sub (min m n) sh2 Ts PP (d_calls st)) as (s2 & st2 & E & (P2 & [Pm2 Id2] & _) & X). exists st2, (comp (firstn m s) s2). split; auto.
  split; [eapply picks_comp; eauto|].
  assert (Sf : firstn m s = comp (firstn m s) (seq 0 (min m n))).
  { rewrite (firstn_seq_epoch s m) at 1. unfold comp. rewrite L. apply map_ext_in. intros i Hi. apply in_seq in Hi. clear - Hi. assert (i < m) by lia. clear Hi. revert i m H. induction s as [|x s IH]; intros [|i] [|m] H; simpl; auto; try lia. apply IH. lia. }
  split; [|split; auto].
  - rewrite Sf at 1. unfold comp. apply Permutation_map. auto.
  - intros Hsh. rewrite (Id2 Hsh). auto.
Qed.

Section Passes.
Context {K A : Type} (perms : nat -> nat -> list nat) (orig : list (K * list A)) (n : nat) (sh : bool).
Hypothesis T : table n orig.
Hypothesis PP : forall c k, Permutation (seq 0 k) (perms c k).
Lemma passes_inv take : n <= take -> forall bs s st, dinv orig n sh s st -> d_next st = 0 -> Forall (fun b => 0 < b) bs ->
  exists st' rs, passes perms st take bs = Some (st', rs) /\ Forall2 (fun b r => snd r = true /\ full_pass orig n sh b (fst r)) bs rs.
Proof.
  intros Ht. induction bs as [|b bs IH]; intros s st I X F; cbn [passes]; [exists st, []; split; auto|].
  assert (B : 0 < b) by (exact (Forall_inv F)).
  destruct (iterate_full perms orig n sh PP s st b take I X B) as (st1 & os & idxs & E & F2 & FL & L & R & (s1 & I1) & X1).
  { etransitivity; [apply Nat.div_le_upper_bound with (q := n); nia|auto]. }
  rewrite E. cbn [bind]. destruct (IH s1 st1 I1 X1 (Forall_inv_tail F)) as (st2 & rs & E2 & F3). rewrite E2. cbn [bind].
  exists st2, ((os, true) :: rs). split; auto. constructor; auto. cbn [fst snd]. split; auto. exists idxs. auto.
Qed.
Theorem passes_full take calls bs : n <= take -> Forall (fun b => 0 < b) bs ->
  exists st st' rs, dataset_new perms orig sh calls = Some st /\ passes perms st take bs = Some (st', rs) /\
    Forall2 (fun b r => snd r = true /\ full_pass orig n sh b (fst r)) bs rs.
Proof.
  intros Ht F. destruct (new_inv perms orig n sh T PP calls) as (s & st & E & I & X). destruct (passes_inv take Ht bs s st I X F) as (st' & rs & E2 & F2). eauto 10.
Qed.
Theorem subset_new calls m sh2 : exists st st2 s idx, dataset_new perms orig sh calls = Some st /\ subset perms st m sh2 = Some st2 /\ picks orig idx (d_map st2) /\
    epoch n sh s /\ Permutation (firstn m s) idx /\ (sh2 = false -> idx = firstn m s).
Proof.
  destruct (new_inv perms orig n sh T PP calls) as (s & st & E & I & X).
  destruct (subset_rows perms orig n sh s st m sh2 T I PP) as (st2 & idx & E2 & Pk & Pm & Id & _).
  exists st, st2, s, idx. destruct I as (_ & Ep & _). auto 10.
Qed.
(** With batch size 0 the iteration never ends. *)
Theorem iterate_zero take s st : dinv orig n sh s st -> exists st' os, iterate_loop perms st 0 take = Some (st', os, false).
Proof.
  revert s st. induction take as [|t IH]; intros s st I; pose proof I as (_ & _ & Hn & _ & Hx); cbn [iterate_loop]; rewrite Hn, Nat.add_0_r; (replace (d_next st <=? n) with true by (symmetry; apply Nat.leb_le; auto)); eauto.
  destruct (next_inv perms orig n sh PP s st 0 I) as (s' & st' & b & E & I' & _). rewrite E. cbn [bind]. destruct (IH s' st' I') as (st2 & os & E2). rewrite E2. cbn [bind]. eauto.
Qed.
Theorem iterate_zero_new take calls : exists st st' os, dataset_new perms orig sh calls = Some st /\ iterate_once perms st 0 take = Some (st', os, false).
Proof.
  destruct (new_inv perms orig n sh T PP calls) as (s & st & E & I & X). unfold iterate_once. pose proof I as (_ & _ & _ & Hs & _).
  assert (Y : exists s1 st1, (if d_shuffle st then shuffle_dataset perms st else Some st) = Some st1 /\ dinv orig n sh s1 st1).
  { rewrite Hs. destruct sh eqn:Hsh; [|eauto]. destruct (shuffle_inv perms orig n true PP s st eq_refl I) as (s1 & st1 & E1 & I1 & _). eauto. }
  destruct Y as (s1 & st1 & E1 & I1). destruct (iterate_zero take s1 st1 I1) as (st2 & os & E2). exists st, st2, os. split; auto. rewrite E1. cbn [bind]. auto.
Qed.
End Passes.
