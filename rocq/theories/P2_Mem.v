(** Facts about the replay memory used by PESA and PESA2: for any equality test on references. *)
From Coq Require Import List Arith ZArith QArith Bool Lia Lqa Permutation Sorted.
From Verif Require Import Base BaseFacts ER_Model ER_Spec ER_Proofs.
Import ListNotations.
Open Scope nat_scope.

Section M.
Context {X M : Type} (eqX : X -> X -> bool) (eqM : M -> M -> bool).
Local Notation S := (sample X M).
Local Notation mem := (memory X M).

(** Shape of a ring buffer. *)
Definition ring (m : mem) : Prop :=
  1 <= msize m /\ length (store m) <= msize m /\ next m < msize m /\
  (length (store m) < msize m -> next m = length (store m)).

Lemma ring_new s : 1 <= s -> ring (@new_memory X M s).
Proof. intros H. unfold ring, new_memory; simpl. lia. Qed.

Lemma set_nth_in {A} (l : list A) : forall i a b, In b (set_nth l i a) -> b = a \/ In b l.
Proof.
  induction l as [|x l IH]; intros [|i] a b; simpl; auto.
  - intros [<-|H]; auto.
  - intros [<-|H]; auto. destruct (IH _ _ _ H); auto.
Qed.
Lemma set_nth_length {A} (l : list A) : forall i a, length (set_nth l i a) = length l.
Proof. induction l; intros [|i] b; simpl; auto. Qed.
Lemma set_nth_has {A} (l : list A) : forall i a, i < length l -> In a (set_nth l i a).
Proof. induction l; intros [|i] b; simpl; intros H; auto; try lia. right. apply IHl. lia. Qed.

Lemma add1_spec (m : mem) (a : S) : ring m -> exists m', add1 eqX eqM m a = Some m' /\ ring m' /\ msize m' = msize m /\
  (forall b, In b (store m') -> b = a \/ In b (store m)) /\ store m' <> [] /\
  length (store m') <= 1 + length (store m) /\
  (exists b, In b (store m') /\ (obj b == obj a)%Q) /\
  (length (store m) < msize m -> incl (store m) (store m')).
Proof.
  intros (R1 & R2 & R3 & R4). unfold add1. destruct (mem_in eqX eqM a (store m)) eqn:E.
  - exists m. split; auto. split; [split; auto|]. split; auto. split; auto.
    unfold mem_in in E. apply existsb_exists in E. destruct E as (b & Hb & Eb).
    split; [intros N; rewrite N in Hb; destruct Hb|]. split; [lia|]. split; [|intros _; apply incl_refl].
    exists b. split; auto. unfold sample_eqb in Eb. apply andb_true_iff in Eb. destruct Eb as (Eb & _).
    apply andb_true_iff in Eb. destruct Eb as (_ & Eb). apply Qeq_bool_iff in Eb. symmetry. exact Eb.
  - destruct (msize m =? 0) eqn:Z; [apply Nat.eqb_eq in Z; lia|]. eexists. split; [reflexivity|].
    unfold ring. cbn [store msize next].
    destruct (length (store m) <=? next m) eqn:L; [apply Nat.leb_le in L|apply Nat.leb_gt in L].
    + assert (E1 : next m = length (store m)) by lia.
      split.
      * rewrite app_length. simpl. split; auto. split; [lia|]. split; [apply Nat.mod_upper_bound; lia|].
        intros H. rewrite E1, Nat.mod_small; lia.
      * split; auto. split.
        { intros b Hb. apply in_app_iff in Hb. destruct Hb as [Hb|[Hb|[]]]; auto. }
        split; [intros N; apply app_eq_nil in N; destruct N; discriminate|].
        split; [rewrite app_length; simpl; lia|]. split.
        { exists a. split; [apply in_app_iff; simpl; auto|reflexivity]. }
        intros _ b Hb. apply in_app_iff. auto.
    + split.
      * rewrite set_nth_length. split; auto. split; auto. split; [apply Nat.mod_upper_bound; lia|]. intros H. rewrite R4 in L; lia.
      * split; auto. split; [intros b Hb; apply set_nth_in in Hb; auto|].
        split. { intros N. apply (f_equal (@length S)) in N. rewrite set_nth_length in N. simpl in N. lia. }
        split; [rewrite set_nth_length; lia|]. split.
        { exists a. split; [apply set_nth_has; auto|reflexivity]. }
        intros H. rewrite R4 in L; lia.
Qed.

Lemma add_all_spec (l : list S) : forall m : mem, ring m -> exists m', ofold (add1 eqX eqM) m l = Some m' /\ ring m' /\ msize m' = msize m /\
  (forall b, In b (store m') -> In b l \/ In b (store m)) /\ (store m <> [] \/ l <> [] -> store m' <> []) /\
  length (store m') <= length l + length (store m) /\
  (length l + length (store m) <= msize m ->
     incl (store m) (store m') /\ forall a, In a l -> exists b, In b (store m') /\ (obj b == obj a)%Q).
Proof.
  induction l as [|a l IH]; intros m R; cbn [ofold].
  - exists m. split; auto. split; auto. split; auto. split; auto. split; [intros [H|H]; auto; congruence|].
    split; [simpl; lia|]. intros _. split; [apply incl_refl|]. intros a [].
  - destruct (add1_spec m a R) as (m1 & E1 & R1 & S1 & I1 & N1 & L1 & B1 & K1). rewrite E1.
    destruct (IH m1 R1) as (m2 & E2 & R2 & S2 & I2 & N2 & L2 & K2). exists m2. split; auto. split; auto. split; [congruence|].
    split. { intros b Hb. destruct (I2 b Hb) as [H|H]; [left; right; auto|]. destruct (I1 b H) as [->|H']; auto. left; left; auto. }
    split; [intros _; apply N2; auto|]. cbn [length]. split; [lia|].
    intros Hc. assert (Hc1 : length (store m) < msize m) by lia. specialize (K1 Hc1).
    destruct K2 as (K2 & B2). { rewrite S1. lia. }
    split; [eapply incl_tran; eauto|]. intros c [<-|Hc']; [|apply B2; auto].
    destruct B1 as (b & Hb & Eb). exists b. auto.
Qed.

Lemma ring_sort (m : mem) : ring m -> ring (sort_store m).
Proof.
  unfold ring, sort_store. cbn [store msize next]. rewrite (Permutation_length (sort_desc_perm (store m))). auto.
Qed.
Lemma sort_store_in (m : mem) b : In b (store (sort_store m)) <-> In b (store m).
Proof.
  unfold sort_store; cbn [store]. split; intros H.
  - eapply Permutation_in; [apply sort_desc_perm|auto].
  - eapply Permutation_in; [symmetry; apply sort_desc_perm|auto].
Qed.
Lemma sort_store_len (m : mem) : length (store (sort_store m)) = length (store m).
Proof. unfold sort_store; cbn [store]. apply Permutation_length, sort_desc_perm. Qed.

Lemma pick_spec (l : list S) ix : (forall i, In i ix -> i < length l) -> exists r, pick l ix = Some r /\ length r = length ix /\ incl r l.
Proof.
  induction ix as [|i ix IH]; intros H; cbn [pick].
  - exists []. split; auto. split; auto. intros x [].
  - destruct (nth_error l i) as [a|] eqn:E; [|apply nth_error_None in E; specialize (H i (or_introl eq_refl)); lia].
    destruct IH as (r & -> & L & I). { intros j Hj. apply H. right; auto. }
    exists (a :: r). split; auto. split; [simpl; lia|]. intros x [<-|Hx]; auto. eapply nth_error_In; eauto.
Qed.

Lemma prior_spec pw (m : mem) ix : store m <> [] -> (forall i, In i ix -> i < length (store m)) ->
  exists l, sample_prior pw m ix = Some (sort_store m, l) /\ length l = length ix /\ incl l (store m).
Proof.
  intros N H. unfold sample_prior.
  assert (E : exists ps, calc_priorities pw m = Some (sort_store m, ps)).
  { unfold calc_priorities. destruct (store (sort_store m)) as [|s0 s1] eqn:E; [|eauto].
    apply (f_equal (@length S)) in E. rewrite sort_store_len in E. destruct (store m); [congruence|discriminate]. }
  destruct E as (ps & ->).
  destruct (pick_spec (store (sort_store m)) ix) as (r & -> & L & I).
  { intros i Hi. rewrite sort_store_len. auto. }
  exists r. split; auto. split; auto. intros x Hx. apply sort_store_in. auto.
Qed.

Lemma greedy_spec (m : mem) : store m <> [] -> exists b, nth_error (snd (sample_greedy m 1)) 0 = Some b /\
  fst (sample_greedy m 1) = sort_store m /\ In b (store m) /\ forall a, In a (store m) -> (obj a <= obj b)%Q.
Proof.
  intros N. unfold sample_greedy. cbn [fst snd].
  pose proof (sort_desc_sorted (store m)) as St. pose proof (sort_desc_perm (store m)) as P.
  unfold sort_store. cbn [store]. destruct (sort_desc (store m)) as [|b r] eqn:E.
  { apply Permutation_nil in P. congruence. }
  exists b. split; auto. split; auto. split; [eapply Permutation_in; [exact P|left; auto]|].
  intros a Ha. apply (Permutation_in _ (Permutation_sym P)) in Ha. inversion St as [|? ? S1 S2]; subst.
  destruct Ha as [<-|Ha]; [lra|]. rewrite Forall_forall in S2. apply S2; auto.
Qed.
End M.

Lemma zip_batch_combine {X M} (pop : list (X * Q)) (l : M) :
  zip_batch (map fst pop) (map snd pop) (Some (repeat l (length pop))) = map (fun rq => (fst rq, snd rq, Some l)) pop.
Proof.
  assert (G : forall p : list (X * Q), map (fun t : X * Q * M => (fst (fst t), snd (fst t), Some (snd t)))
     (combine (combine (map fst p) (map snd p)) (repeat l (length p))) = map (fun rq => (fst rq, snd rq, Some l)) p).
  { induction p as [|[x q] p IH]; simpl; auto. f_equal. exact IH. }
  destruct pop as [|a pop]; [reflexivity|]. exact (G (a :: pop)).
Qed.
