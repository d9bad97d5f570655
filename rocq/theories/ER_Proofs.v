From Coq Require Import List Arith ZArith QArith Bool Lia Lqa Permutation Sorted.
From Verif Require Import Base BaseFacts Ring ER_Model ER_Spec.
Import ListNotations.
Open Scope nat_scope.

Section P.
  Context {X M : Type}.
  Variable eqX : X -> X -> bool.
  Variable eqM : M -> M -> bool.
  Variable pw : Q -> Q.
  Hypothesis EX : equivalence eqX.
  Hypothesis EM : equivalence eqM.
  Notation S := (sample X M).
  Notation seqb := (sample_eqb eqX eqM).

  Lemma seqb_equiv : equivalence seqb.
  Proof.
    destruct EX as (X1 & X2 & X3), EM as (M1 & M2 & M3).
    unfold sample_eqb, sx, obj. split; [|split].
    - intros [[x o] m]. cbn [fst snd]. rewrite X1. rewrite (proj2 (Qeq_bool_iff o o)) by reflexivity.
      destruct m; simpl; auto.
    - intros [[x o] m] [[x' o'] m']. cbn [fst snd]. rewrite !andb_true_iff, !Qeq_bool_iff.
      intros [[H1 H2] H3]. rewrite (X2 _ _ H1). split; [split; auto; now symmetry|].
      destruct m, m'; auto.
    - intros [[x o] m] [[x' o'] m'] [[x'' o''] m'']. cbn [fst snd]. rewrite !andb_true_iff, !Qeq_bool_iff.
      intros [[H1 H2] H3] [[H4 H5] H6]. rewrite (X3 _ _ _ H1 H4).
      split; [split; auto; now rewrite H2|].
      destruct m, m', m''; eauto; discriminate.
  Qed.

  (** *** No equal pair as an inductive predicate *)
  Definition apart (a b : S) : Prop := seqb a b = false.

  Lemma no_equal_pair_FOP l : no_equal_pair eqX eqM l <-> ForallOrdPairs apart l.
  Proof.
    unfold no_equal_pair. split.
    - induction l as [|a l IH]; intros H; constructor.
      + apply Forall_forall. intros b Hb. apply In_nth_error in Hb. destruct Hb as (j & Hj).
        apply (H 0 (1 + j)); simpl; auto. lia.
      + apply IH. intros i j x y Hij Hi Hj. apply (H (1 + i) (1 + j)); simpl; auto. lia.
    - intros H. induction H as [|a l Ha H IH]; intros i j x y Hij Hi Hj.
      + destruct i; discriminate.
      + destruct j as [|j]; [lia|]. destruct i as [|i]; simpl in *.
        * injection Hi as ->. rewrite Forall_forall in Ha. apply Ha. eapply nth_error_In; eauto.
        * eapply (IH i j); eauto. lia.
  Qed.

  Lemma apart_sym a b : apart a b -> apart b a.
  Proof.
    unfold apart. intros H. destruct (seqb b a) eqn:E; auto.
    destruct seqb_equiv as (_ & Hs & _). apply Hs in E. congruence.
  Qed.

  Lemma FOP_perm l l' : Permutation l l' -> ForallOrdPairs apart l -> ForallOrdPairs apart l'.
  Proof.
    induction 1; intros F.
    - constructor.
    - inversion F; subst. constructor; auto. eapply Permutation_Forall; eauto.
    - inversion F as [|? ? F1 F2]; subst. inversion F2 as [|? ? F3 F4]; subst. inversion F1; subst.
      constructor; [constructor; auto; now apply apart_sym|]. constructor; auto.
    - auto.
  Qed.

  Lemma FOP_app_one l a : ForallOrdPairs apart l -> Forall (fun b => apart b a) l ->
    ForallOrdPairs apart (l ++ [a]).
  Proof.
    induction l as [|b l IH]; intros H F; simpl.
    - constructor; constructor.
    - inversion H; subst. inversion F; subst. constructor; auto.
      apply Forall_app. split; auto.
  Qed.

  Lemma set_nth_In {A} (l : list A) : forall i x y, In y (set_nth l i x) -> y = x \/ In y l.
  Proof.
    induction l as [|b l IH]; intros [|i] x y; simpl; intros H; auto.
    - destruct H; auto.
    - destruct H as [|H]; auto. destruct (IH _ _ _ H); auto.
  Qed.

  Lemma FOP_set_nth l a : forall i, ForallOrdPairs apart l -> Forall (fun b => apart b a) l ->
    ForallOrdPairs apart (set_nth l i a).
  Proof.
    induction l as [|b l IH]; intros [|i] H F; simpl; auto; inversion H; subst; inversion F; subst.
    - constructor; auto. eapply Forall_impl; [|eassumption]. intros; now apply apart_sym.
    - constructor; auto. apply Forall_forall. intros y Hy. apply set_nth_In in Hy.
      destruct Hy as [->|Hy]; auto. rewrite Forall_forall in *. auto.
  Qed.

  Lemma mem_in_false a l : mem_in eqX eqM a l = false -> Forall (fun b => apart b a) l.
  Proof.
    intros H. apply Forall_forall. intros b Hb. apply apart_sym. unfold apart.
    destruct (seqb a b) eqn:E; auto. exfalso.
    assert (mem_in eqX eqM a l = true); [|congruence].
    apply existsb_exists. eauto.
  Qed.

  (** *** Sorting *)
  Lemma insert_desc_perm (a : S) l : Permutation (insert_desc a l) (a :: l).
  Proof.
    induction l as [|b l IH]; simpl; auto.
    destruct (Qle_bool (obj b) (obj a)); auto.
    rewrite IH. constructor.
  Qed.
  Lemma sort_desc_perm (l : list S) : Permutation (sort_desc l) l.
  Proof. induction l; simpl; auto. rewrite insert_desc_perm. now constructor. Qed.

  Definition dec (a b : S) : Prop := (obj b <= obj a)%Q.
  Lemma insert_desc_sorted (a : S) l : StronglySorted dec l -> StronglySorted dec (insert_desc a l).
  Proof.
    induction l as [|b l IH]; intros H; simpl.
    - repeat constructor.
    - inversion H as [|? ? Hs Hf]; subst.
      destruct (Qle_bool (obj b) (obj a)) eqn:E; qprop.
      + constructor; auto. constructor; auto. eapply Forall_impl; [|exact Hf].
        unfold dec. intros; lra.
      + constructor; auto. apply Forall_forall. intros x Hx.
        apply (Permutation_in _ (insert_desc_perm a l)) in Hx. destruct Hx as [<-|Hx].
        * unfold dec. lra.
        * rewrite Forall_forall in Hf. auto.
  Qed.
  Lemma sort_desc_sorted (l : list S) : StronglySorted dec (sort_desc l).
  Proof. induction l; simpl; [constructor|]. now apply insert_desc_sorted. Qed.

  (** *** Dedupe by x *)
  Lemma dedupe_spec l : forall seen,
    (forall a, In a (dedupe_x (M:=M) eqX seen l) -> In a l /\ existsb (eqX (sx a)) seen = false) /\
    ForallOrdPairs (fun a b => eqX (sx a) (sx b) = false) (dedupe_x eqX seen l) /\
    (forall a, In a l -> existsb (eqX (sx a)) seen = false ->
       exists b, In b (dedupe_x eqX seen l) /\ eqX (sx a) (sx b) = true) /\
    length (dedupe_x eqX seen l) <= length l /\
    (ForallOrdPairs apart l -> ForallOrdPairs apart (dedupe_x eqX seen l)).
  Proof.
    destruct EX as (X1 & X2 & X3).
    induction l as [|a l IH]; intros seen; simpl.
    - repeat split; auto; try tauto. constructor.
    - destruct (existsb (eqX (sx a)) seen) eqn:E.
      + destruct (IH seen) as (H1 & H2 & H3 & H4 & H5). split; [|split; [|split; [|split]]].
        * intros b Hb. apply H1 in Hb. tauto.
        * auto.
        * intros b [<-|Hb] Hs; [congruence|]. auto.
        * lia.
        * intros F. inversion F; auto.
      + destruct (IH (seen ++ [sx a])) as (H1 & H2 & H3 & H4 & H5). split; [|split; [|split; [|split]]].
        * intros b [<-|Hb]; auto. apply H1 in Hb. destruct Hb as [Hb Hs]. rewrite existsb_app in Hs.
          apply orb_false_iff in Hs. tauto.
        * constructor; auto. apply Forall_forall. intros b Hb. apply H1 in Hb. destruct Hb as [_ Hs].
          rewrite existsb_app in Hs. simpl in Hs. rewrite orb_false_r in Hs. apply orb_false_iff in Hs.
          destruct Hs as [_ Hs]. destruct (eqX (sx a) (sx b)) eqn:E2; auto. apply X2 in E2. congruence.
        * intros b [<-|Hb] Hs; [exists a; split; [now left|auto]|].
          destruct (eqX (sx b) (sx a)) eqn:E2; [exists a; split; [now left|auto]|].
          destruct (H3 b Hb) as (c & Hc & Ec).
          { rewrite existsb_app. simpl. now rewrite Hs, E2. }
          exists c; split; [now right|auto].
        * simpl. lia.
        * intros F. inversion F; subst. constructor; auto. apply Forall_forall. intros b Hb.
          apply H1 in Hb. rewrite Forall_forall in H6. apply H6. tauto.
  Qed.

  (** *** Main invariant *)
  Definition inv (s : nat) (all : list S) (m : memory X M) : Prop :=
    msize m = s /\ next m < s /\ length (store m) <= s /\
    ForallOrdPairs apart (store m) /\ incl (store m) all.

  Lemma add1_inv s all m a : 1 <= s -> inv s all m -> incl [a] all ->
    exists m', add1 eqX eqM m a = Some m' /\ inv s all m'.
  Proof.
    intros Hs (H1 & H2 & H3 & H4 & H5) Ha. unfold add1.
    destruct (mem_in eqX eqM a (store m)) eqn:E.
    { exists m. unfold inv. tauto. }
    rewrite H1. destruct (Nat.eqb_spec s 0); [lia|].
    eexists. split; [reflexivity|]. unfold inv. cbn [msize next store].
    apply mem_in_false in E.
    split; [auto|]. split; [apply Nat.mod_upper_bound; lia|].
    destruct (Nat.leb_spec (length (store m)) (next m)).
    - split; [rewrite app_length; simpl; lia|]. split.
      + now apply FOP_app_one.
      + apply incl_app; auto.
    - split; [rewrite length_set_nth; lia|]. split.
      + now apply FOP_set_nth.
      + intros y Hy. apply set_nth_In in Hy. destruct Hy as [->|Hy]; auto. apply Ha. now left.
  Qed.

  Lemma ofold_add1_inv s all : 1 <= s -> forall l m, inv s all m -> incl l all ->
    exists m', ofold (add1 eqX eqM) m l = Some m' /\ inv s all m'.
  Proof.
    intros Hs. induction l as [|a l IH]; intros m Hm Hi; simpl; eauto.
    destruct (add1_inv s all m a Hs Hm) as (m1 & E & Hm1).
    { intros x [<-|[]]. apply Hi. now left. }
    rewrite E. apply IH; auto. intros x Hx. apply Hi. now right.
  Qed.

  Lemma inv_sort s all m : inv s all m -> inv s all (sort_store m).
  Proof.
    intros (H1 & H2 & H3 & H4 & H5). unfold inv, sort_store. cbn [msize next store].
    pose proof (sort_desc_perm (store m)) as P.
    split; [auto|]. split; [auto|]. split; [now rewrite (Permutation_length P)|]. split.
    - eapply FOP_perm; [symmetry; exact P|auto].
    - intros x Hx. apply H5. eapply Permutation_in; eauto.
  Qed.

  Lemma exec_inv s all m c m' : 1 <= s -> inv s all m -> incl (added c) all ->
    exec_op eqX eqM pw m c = Some m' -> inv s all m'.
  Proof.
    intros Hs Hm Hi E. destruct c; simpl in *.
    - destruct (add1_inv s all m (x, o, m0) Hs Hm Hi) as (m1 & E1 & Hm1).
      unfold add_single in E. congruence.
    - destruct (ofold_add1_inv s all Hs _ m Hm Hi) as (m1 & E1 & Hm1).
      unfold add_batch in E. congruence.
    - destruct (sample_uniform m draws); [|discriminate]. now injection E as <-.
    - injection E as <-. now apply inv_sort.
    - unfold sample_prior, calc_priorities in E.
      destruct (store (sort_store m)) eqn:Es; [discriminate|].
      destruct (pick _ _); [|discriminate]. injection E as <-. now apply inv_sort.
    - unfold remove_duplicates in E. destruct (store m) as [|b l] eqn:Es; [discriminate|].
      injection E as <-. destruct Hm as (H1 & H2 & H3 & H4 & H5). rewrite Es in *.
      destruct (dedupe_spec (b :: l) []) as (D1 & D2 & D3 & D4 & D5).
      unfold inv. cbn [msize next store]. split; [auto|]. split; [auto|]. split; [exact (Nat.le_trans _ _ _ D4 H3)|].
      split; auto. intros x Hx. apply H5. now apply D1.
  Qed.

  Lemma inv_mono s all all' m : incl all all' -> inv s all m -> inv s all' m.
  Proof.
    intros Hi (H1 & H2 & H3 & H4 & H5). repeat split; auto. intros x Hx. auto.
  Qed.

  Lemma run_inv s all : 1 <= s -> forall h m m', inv s all m ->
    incl (flat_map added h) all -> ofold (exec_op eqX eqM pw) m h = Some m' -> inv s all m'.
  Proof.
    intros Hs. induction h as [|c h IH]; intros m m' Hm Hi E; simpl in *.
    - now injection E as <-.
    - destruct (exec_op eqX eqM pw m c) as [m1|] eqn:E1; [|discriminate].
      apply (IH m1); auto.
      + eapply exec_inv; eauto. intros x Hx. apply Hi, in_app_iff. now left.
      + intros x Hx. apply Hi, in_app_iff. now right.
  Qed.

  Lemma inv_new s all : 1 <= s -> inv s all (new_memory s).
  Proof.
    intros Hs. unfold inv, new_memory. simpl. repeat split; auto; try lia; try constructor.
    intros x [].
  Qed.

  Lemma er_invariant s h m : 1 <= s -> ofold (exec_op eqX eqM pw) (new_memory s) h = Some m ->
    no_equal_pair eqX eqM (store m) /\ length (store m) <= s /\
    (forall a, In a (store m) -> In a (flat_map added h)) /\
    (forall k, memory_can_sample m k = true <-> k <= length (store m)) /\
    (memory_is_full m = true <-> length (store m) = s).
  Proof.
    intros Hs E. pose proof (run_inv s (flat_map added h) Hs h (new_memory s) m (inv_new s _ Hs) (incl_refl _) E)
      as (H1 & H2 & H3 & H4 & H5).
    split; [now apply no_equal_pair_FOP|]. split; [auto|]. split; [auto|]. split.
    - intros k. apply Nat.leb_le.
    - unfold memory_is_full. rewrite H1. apply Nat.eqb_eq.
  Qed.

  (** Calls never raise unless the code says so. *)
  Lemma er_add_total s h m c : 1 <= s -> ofold (exec_op eqX eqM pw) (new_memory s) h = Some m ->
    match c with OAdd _ _ _ | OAddBatch _ _ _ | OGreedy _ => True | _ => False end ->
    exec_op eqX eqM pw m c <> None.
  Proof.
    intros Hs E Hc.
    pose proof (run_inv s (flat_map added h ++ added c) Hs h (new_memory s) m (inv_new s _ Hs)
                  (incl_appl _ (incl_refl _)) E) as Hm.
    destruct c; try destruct Hc; simpl.
    - destruct (add1_inv s (flat_map added h ++ [(x,o,m0)]) m (x,o,m0) Hs Hm) as (m1 & E1 & _).
      { apply incl_appr, incl_refl. } unfold add_single. congruence.
    - destruct (ofold_add1_inv s _ Hs (zip_batch xs os ms) m Hm) as (m1 & E1 & _).
      { apply incl_appr, incl_refl. } unfold add_batch. congruence.
    - discriminate.
  Qed.

  (** *** Nothing is lost while at most [s] distinct samples have been added *)
  Fixpoint find_idx (a : S) (d : list S) : nat :=
    match d with [] => 0 | b :: r => if seqb a b then 0 else 1 + find_idx a r end.
  Lemma find_idx_spec a d : occurs eqX eqM a d ->
    exists b, nth_error d (find_idx a d) = Some b /\ seqb a b = true.
  Proof.
    intros (b & Hb & E). induction d as [|c d IH]; simpl in *; [tauto|].
    destruct (seqb a c) eqn:E2; [simpl; eauto|]. simpl.
    apply IH. destruct Hb as [<-|]; auto. congruence.
  Qed.

  Lemma pigeon l d : ForallOrdPairs apart l -> (forall a, In a l -> occurs eqX eqM a d) ->
    length l <= length d.
  Proof.
    intros F H. destruct seqb_equiv as (R1 & R2 & R3).
    assert (ND : NoDup (map (fun a => find_idx a d) l)).
    { clear -F H R1 R2 R3. induction F as [|a l Fa F IH]; simpl; constructor.
      - intro Hin. apply in_map_iff in Hin. destruct Hin as (b & E & Hb).
        destruct (find_idx_spec a d) as (x & Hx & Ex); [apply H; now left|].
        destruct (find_idx_spec b d) as (y & Hy & Ey); [apply H; now right|].
        rewrite E in Hy. assert (x = y) by congruence. subst y.
        rewrite Forall_forall in Fa. specialize (Fa b Hb). unfold apart in Fa.
        assert (seqb a b = true) by eauto. congruence.
      - apply IH. intros; apply H; now right. }
    rewrite <- (map_length (fun a => find_idx a d) l).
    rewrite <- (seq_length (length d) 0).
    apply NoDup_incl_length; auto.
    intros i Hi. apply in_map_iff in Hi. destruct Hi as (a & <- & Ha).
    apply in_seq. destruct (find_idx_spec a d (H a Ha)) as (b & Hb & _).
    split; [lia|]. simpl. apply nth_error_Some. congruence.
  Qed.

  Definition kinv (s : nat) (m : memory X M) : Prop := length (store m) < s -> next m = length (store m).

  Lemma occurs_incl a l l' : incl l l' -> occurs eqX eqM a l -> occurs eqX eqM a l'.
  Proof. intros H (b & Hb & E). exists b. auto. Qed.

  Lemma add1_keep s all d m a m' : 1 <= s -> inv s all m -> kinv s m -> incl [a] all ->
    length d <= s -> (forall a, In a all -> occurs eqX eqM a d) ->
    add1 eqX eqM m a = Some m' ->
    kinv s m' /\ incl (store m) (store m') /\ occurs eqX eqM a (store m').
  Proof.
    intros Hs (H1 & H2 & H3 & H4 & H5) K Ha Hd Hcov E. unfold add1 in E.
    destruct (mem_in eqX eqM a (store m)) eqn:Em.
    { injection E as <-. split; [auto|]. split; [apply incl_refl|].
      apply existsb_exists in Em. destruct Em as (b & Hb & Eb). exists b. auto. }
    rewrite H1 in E. destruct (Nat.eqb_spec s 0); [lia|]. injection E as <-.
    apply mem_in_false in Em.
    assert (Hlt : length (store m) < s).
    { assert (length (store m ++ [a]) <= length d).
      { apply pigeon.
        - now apply FOP_app_one.
        - intros b Hb. apply Hcov. apply in_app_iff in Hb. destruct Hb as [Hb|[<-|[]]]; auto.
          apply Ha. now left. }
      rewrite app_length in H. simpl in H. lia. }
    pose proof (K Hlt) as Kn. unfold kinv. cbn [store next].
    rewrite Kn. rewrite (proj2 (Nat.leb_le _ _)) by lia.
    split.
    { rewrite app_length. simpl. intros Hl. rewrite Nat.mod_small; lia. }
    split; [apply incl_appl, incl_refl|].
    exists a. split; [apply in_app_iff; right; now left|]. destruct seqb_equiv as (R & _ & _). apply R.
  Qed.

  Lemma ofold_keep s all d : 1 <= s -> length d <= s -> (forall a, In a all -> occurs eqX eqM a d) ->
    forall l m m', inv s all m -> kinv s m -> incl l all -> ofold (add1 eqX eqM) m l = Some m' ->
    kinv s m' /\ incl (store m) (store m') /\ (forall a, In a l -> occurs eqX eqM a (store m')).
  Proof.
    intros Hs Hd Hcov. induction l as [|a l IH]; intros m m' Hm K Hi E; simpl in E.
    - injection E as <-. split; [auto|]. split; [apply incl_refl|]. intros a [].
    - destruct (add1_inv s all m a Hs Hm) as (m1 & E1 & Hm1).
      { intros x [<-|[]]. apply Hi. now left. }
      rewrite E1 in E.
      destruct (add1_keep s all d m a m1) as (K1 & I1 & O1); auto.
      { intros x [<-|[]]. apply Hi. now left. }
      destruct (IH m1 m' Hm1 K1) as (K2 & I2 & O2); auto.
      { intros x Hx. apply Hi. now right. }
      split; [auto|]. split; [eapply incl_tran; eauto|].
      intros b [<-|Hb]; auto. eapply occurs_incl; eauto.
  Qed.

  Lemma kinv_sort s m : kinv s m -> kinv s (sort_store m).
  Proof.
    unfold kinv, sort_store. cbn [store next]. rewrite (Permutation_length (sort_desc_perm (store m))). auto.
  Qed.

  Lemma er_keeps_all s h m d : 1 <= s -> ofold (exec_op eqX eqM pw) (new_memory s) h = Some m ->
    existsb is_remove h = false -> length d <= s ->
    (forall a, In a (flat_map added h) -> occurs eqX eqM a d) ->
    forall a, In a (flat_map added h) -> occurs eqX eqM a (store m).
  Proof.
    intros Hs E Hr Hd Hcov. set (all := flat_map added h) in *.
    assert (G : forall h m0 m, inv s all m0 -> kinv s m0 -> incl (flat_map added h) all ->
       existsb is_remove h = false -> ofold (exec_op eqX eqM pw) m0 h = Some m ->
       (forall a, occurs eqX eqM a (store m0) -> occurs eqX eqM a (store m)) /\
       (forall a, In a (flat_map added h) -> occurs eqX eqM a (store m))).
    { clearbody all. clear - Hs Hd Hcov EX EM.
      induction h as [|c h IH]; intros m0 m Hm K Hi Hr E; simpl in *.
      - injection E as <-. split; auto. intros a [].
      - destruct (exec_op eqX eqM pw m0 c) as [m1|] eqn:E1; [|discriminate].
        apply orb_false_iff in Hr. destruct Hr as [Hr1 Hr2].
        assert (Hi1 : incl (added c) all) by (intros x Hx; apply Hi, in_app_iff; now left).
        assert (Hi2 : incl (flat_map added h) all) by (intros x Hx; apply Hi, in_app_iff; now right).
        pose proof (exec_inv s all m0 c m1 Hs Hm Hi1 E1) as Hm1.
        assert (St : kinv s m1 /\ incl (store m0) (store m1) /\
                     (forall a, In a (added c) -> occurs eqX eqM a (store m1))).
        { assert (Hsort : kinv s (sort_store m0) /\ incl (store m0) (store (sort_store m0)) /\
              (forall a : S, In a [] -> occurs eqX eqM a (store (sort_store m0)))).
          { split; [now apply kinv_sort|]. split; [|intros a []].
            intros x Hx. eapply Permutation_in; [symmetry; apply sort_desc_perm|auto]. }
          destruct c; simpl in *; try discriminate.
          - destruct (add1_keep s all d m0 (x,o,m2) m1) as (K1 & I1 & O1); auto.
            split; [auto|]. split; [auto|]. intros a [<-|[]]. auto.
          - apply (ofold_keep s all d Hs Hd Hcov _ m0 m1); auto.
          - destruct (sample_uniform m0 draws); [|discriminate]. injection E1 as <-.
            split; [auto|]. split; [apply incl_refl|]. intros a [].
          - injection E1 as <-. exact Hsort.
          - unfold sample_prior, calc_priorities in E1.
            destruct (store (sort_store m0)) eqn:Es; [discriminate|].
            destruct (pick _ _); [|discriminate]. injection E1 as <-. try rewrite <- Es in Hsort. exact Hsort. }
        destruct St as (K1 & I1 & O1).
        destruct (IH m1 m Hm1 K1 Hi2 Hr2 E) as (A1 & A2). split.
        + intros a Ha. apply A1. eapply occurs_incl; eauto.
        + intros a Ha. apply in_app_iff in Ha. destruct Ha as [Ha|Ha]; auto. }
    destruct (G h (new_memory s) m) as (_ & A); auto.
    - now apply inv_new.
    - unfold kinv, new_memory. simpl. auto.
    - apply incl_refl.
  Qed.

  (** *** First in, first out when nothing sorts the storage *)
  Lemma window_min s acc : window (X:=X) (M:=M) s acc = skipn (length acc - Nat.min (length acc) s) acc.
  Proof. unfold window. f_equal. lia. Qed.

  Lemma mem_in_perm a l l' : Permutation l l' -> mem_in eqX eqM a l = existsb (sample_eqb eqX eqM a) l'.
  Proof.
    intros P. unfold mem_in. induction P; simpl; try congruence.
    destruct (seqb a x), (seqb a y); reflexivity.
  Qed.

  Definition finv s acc (m : memory X M) := msize m = s /\ ring_inv s acc (store m) (next m).

  Lemma add1_fifo s acc m a : 1 <= s -> finv s acc m ->
    exists m', add1 eqX eqM m a = Some m' /\ finv s (accept eqX eqM s acc a) m'.
  Proof.
    intros Hs (H1 & H2). unfold add1, accept.
    pose proof (ring_perm s acc _ _ Hs H2) as P. rewrite <- window_min in P.
    rewrite (mem_in_perm a _ _ P). destruct (existsb _ (window s acc)).
    { exists m. split; auto. split; auto. }
    rewrite H1. destruct (Nat.eqb_spec s 0); [lia|].
    eexists. split; [reflexivity|]. split; [reflexivity|]. cbn [store next].
    apply (ring_step s acc (store m) (next m) a Hs H2).
  Qed.

  Lemma ofold_fifo s : 1 <= s -> forall l acc m, finv s acc m ->
    exists m', ofold (add1 eqX eqM) m l = Some m' /\ finv s (fold_left (accept eqX eqM s) l acc) m'.
  Proof.
    intros Hs. induction l as [|a l IH]; intros acc m Hm; simpl; eauto.
    destruct (add1_fifo s acc m a Hs Hm) as (m1 & E & Hm1). rewrite E. auto.
  Qed.

  Lemma er_fifo s h m : 1 <= s -> ofold (exec_op eqX eqM pw) (new_memory s) h = Some m ->
    existsb reorders h = false ->
    let acc := fold_left (accept eqX eqM s) (flat_map added h) [] in
    Permutation (store m) (window s acc) /\
    (forall t, length acc - Nat.min (length acc) s <= t < length acc ->
       nth_error (store m) (t mod s) = nth_error acc t).
  Proof.
    intros Hs E Hr acc.
    assert (G : forall h acc m0 m, finv s acc m0 -> existsb reorders h = false ->
       ofold (exec_op eqX eqM pw) m0 h = Some m ->
       finv s (fold_left (accept eqX eqM s) (flat_map added h) acc) m).
    { clear - Hs. induction h as [|c h IH]; intros acc m0 m Hm Hr E; simpl in *.
      - injection E as <-. auto.
      - apply orb_false_iff in Hr. destruct Hr as [Hr1 Hr2].
        destruct (exec_op eqX eqM pw m0 c) as [m1|] eqn:E1; [|discriminate].
        rewrite fold_left_app. apply (IH _ m1); auto.
        destruct c; simpl in *; try discriminate.
        + destruct (add1_fifo s acc m0 (x,o,m2) Hs Hm) as (m' & E' & Hm'). unfold add_single in E1. congruence.
        + destruct (ofold_fifo s Hs (zip_batch xs os ms) acc m0 Hm) as (m' & E' & Hm').
          unfold add_batch in E1. congruence.
        + destruct (sample_uniform m0 draws); [|discriminate]. injection E1 as <-. auto. }
    assert (Hf : finv s acc m).
    { apply (G h [] (new_memory s)); auto. split; [reflexivity|]. apply ring_new. }
    destruct Hf as (_ & Hf). split.
    - rewrite window_min. eapply ring_perm; eauto.
    - apply Hf.
  Qed.

  (** *** Greedy sampling *)
  Lemma sorted_firstn_skipn (l : list S) k : StronglySorted dec l ->
    StronglySorted dec (firstn k l) /\
    (forall a b, In a (firstn k l) -> In b (skipn k l) -> (obj b <= obj a)%Q).
  Proof.
    intros H. revert k. induction H as [|a l H IH Hf]; intros [|k]; simpl.
    - split; [constructor|tauto].
    - split; [constructor|tauto].
    - split; [constructor|tauto].
    - destruct (IH k) as (I1 & I2). split.
      + constructor; auto. apply Forall_forall. intros x Hx. rewrite Forall_forall in Hf.
        apply Hf. rewrite <- (firstn_skipn k l). apply in_app_iff. auto.
      + intros x y [<-|Hx] Hy.
        * rewrite Forall_forall in Hf. apply Hf. rewrite <- (firstn_skipn k l). apply in_app_iff. auto.
        * auto.
  Qed.

  Lemma greedy_spec (m : memory X M) k :
    let r := snd (sample_greedy m k) in
    length r = Nat.min k (length (store m)) /\
    StronglySorted (fun a b => (obj b <= obj a)%Q) r /\
    (exists rest, Permutation (r ++ rest) (store m) /\
       forall a b, In a r -> In b rest -> (obj b <= obj a)%Q) /\
    Permutation (store (fst (sample_greedy m k))) (store m).
  Proof.
    cbv zeta. unfold sample_greedy, sort_store. cbn [fst snd store].
    pose proof (sort_desc_perm (store m)) as P.
    destruct (sorted_firstn_skipn _ k (sort_desc_sorted (store m))) as (H1 & H2).
    split; [now rewrite firstn_length, (Permutation_length P)|]. split; [exact H1|]. split; [|exact P].
    exists (skipn k (sort_desc (store m))). split; [now rewrite firstn_skipn|auto].
  Qed.

  Lemma uniform_prior_spec (l : list S) : forall draws r, pick l draws = Some r ->
    Forall2 (fun i a => nth_error l i = Some a) draws r.
  Proof.
    induction draws as [|i d IH]; simpl; intros r E.
    - injection E as <-. constructor.
    - destruct (nth_error l i) eqn:Ei; [|discriminate]. destruct (pick l d); [|discriminate].
      injection E as <-. constructor; auto.
  Qed.

  (** *** Remove duplicates *)
  Lemma remove_dup_spec (m m' : memory X M) : remove_duplicates eqX m = Some m' ->
    (forall a, In a (store m') -> In a (store m)) /\
    ForallOrdPairs (fun a b => eqX (sx a) (sx b) = false) (store m') /\
    (forall a, In a (store m) -> exists b, In b (store m') /\ eqX (sx a) (sx b) = true).
  Proof.
    unfold remove_duplicates. destruct (store m) as [|a l] eqn:E; [discriminate|].
    intros H. assert (Em : m' = mkMem (dedupe_x eqX [] (a :: l)) (msize m) (next m)) by congruence.
    subst m'. cbn [store]. rewrite <- E in *.
    destruct (dedupe_spec (store m) []) as (H1 & H2 & H3 & _ & _).
    split; [intros b Hb; now apply H1|]. split; [auto|]. intros b Hb. apply H3; auto.
  Qed.
End P.

(** *** Batches *)
Lemma zip_batch_nth {X M} (xs : list X) (os : list Q) (ms : list M) : ms <> [] -> forall i,
  nth_error (zip_batch xs os (Some ms)) i =
  match nth_error xs i, nth_error os i, nth_error ms i with
  | Some x, Some o, Some m => Some (x, o, Some m)
  | _, _, _ => None
  end.
Proof.
  intros Hne. unfold zip_batch. destruct ms as [|m0 ms0]; [congruence|]. set (ms := m0 :: ms0). clearbody ms. clear.
  revert os ms. induction xs as [|x xs IH]; intros os ms i; simpl.
  - destruct i; reflexivity.
  - destruct os as [|o os]; simpl.
    + destruct i; simpl; auto. destruct (nth_error xs i); auto.
    + destruct ms as [|m ms]; simpl.
      * destruct i; simpl; auto. destruct (nth_error xs i), (nth_error os i); auto.
      * destruct i as [|i]; simpl; auto.
Qed.
Lemma zip_batch_nth_none {X M} (xs : list X) (os : list Q) : forall i,
  nth_error (zip_batch (M:=M) xs os None) i =
  match nth_error xs i, nth_error os i with
  | Some x, Some o => Some (x, o, None)
  | _, _ => None
  end.
Proof.
  unfold zip_batch. revert os. induction xs as [|x xs IH]; intros os i; simpl.
  - destruct i; reflexivity.
  - destruct os as [|o os]; simpl.
    + destruct i; simpl; auto. destruct (nth_error xs i); auto.
    + destruct i as [|i]; simpl; auto.
Qed.

(** *** Priorities *)
Lemma qsum_app l1 l2 : (qsum (l1 ++ l2) == qsum l1 + qsum l2)%Q.
Proof. induction l1; simpl; [lra|]. rewrite IHl1. ring. Qed.

Lemma qsum_div l c : ~ (c == 0)%Q -> (qsum (map (fun w => w / c) l) == qsum l / c)%Q.
Proof.
  intros Hc. induction l; simpl.
  - field. auto.
  - rewrite IHl. field. auto.
Qed.

Lemma qsum_pos l : l <> [] -> (forall x, In x l -> (0 < x)%Q) -> (0 < qsum l)%Q.
Proof.
  destruct l as [|a l]; [congruence|]. intros _ H. simpl.
  assert (0 <= qsum l)%Q.
  { assert (forall x, In x l -> (0 < x)%Q) by (intros; apply H; now right).
    clear H. induction l; simpl; [lra|]. pose proof (H0 a0 (or_introl eq_refl)).
    assert (0 <= qsum l)%Q; [|lra]. apply IHl. intros; apply H0; now right. }
  pose proof (H a (or_introl eq_refl)). lra.
Qed.

Lemma inv_nat_pos i : 1 <= i -> (0 < 1 / inject_Z (Z.of_nat i))%Q.
Proof.
  intros Hi. apply Qlt_shift_div_l.
  - change 0%Q with (inject_Z 0). rewrite <- Zlt_Qlt. lia.
  - lra.
Qed.
Lemma inv_nat_anti i j : 1 <= i <= j -> (1 / inject_Z (Z.of_nat j) <= 1 / inject_Z (Z.of_nat i))%Q.
Proof.
  intros Hi. apply Qle_shift_div_l.
  - change 0%Q with (inject_Z 0). rewrite <- Zlt_Qlt. lia.
  - setoid_replace (1 / inject_Z (Z.of_nat j) * inject_Z (Z.of_nat i))%Q
      with (inject_Z (Z.of_nat i) / inject_Z (Z.of_nat j))%Q.
    + apply Qle_shift_div_r.
      * change 0%Q with (inject_Z 0). rewrite <- Zlt_Qlt. lia.
      * rewrite Qmult_1_l. rewrite <- Zle_Qle. lia.
    + field. intro E. apply (inject_Z_injective (Z.of_nat j) 0) in E. lia.
Qed.

Section Prior.
  Context {X M : Type}.
  Variable pw : Q -> Q.
  Hypothesis pw_pos : forall x, (0 < x)%Q -> (0 < pw x)%Q.
  Hypothesis pw_mono : forall x y, (0 < x)%Q -> (x <= y)%Q -> (pw x <= pw y)%Q.

  Lemma priorities_spec (m : memory X M) : store m <> [] ->
    exists m' ps, calc_priorities pw m = Some (m', ps) /\
      Permutation (store m') (store m) /\
      StronglySorted (fun a b => (obj b <= obj a)%Q) (store m') /\
      length ps = length (store m') /\
      (forall p, In p ps -> (0 < p)%Q) /\
      (qsum ps == 1)%Q /\
      (forall i j p q, i <= j -> nth_error ps i = Some p -> nth_error ps j = Some q -> (q <= p)%Q).
  Proof.
    intros Hne. unfold calc_priorities. set (m' := sort_store m).
    pose proof (sort_desc_perm (store m)) as P.
    destruct (store m') as [|a l] eqn:E.
    { exfalso. unfold m', sort_store in E. cbn [store] in E. rewrite E in P.
      apply Permutation_nil in P. auto. }
    rewrite <- E. set (ws := rank_weights pw (length (store m'))).
    assert (Hws : forall x, In x ws -> (0 < x)%Q).
    { intros x Hx. unfold ws, rank_weights in Hx. apply in_map_iff in Hx.
      destruct Hx as (i & <- & Hi). apply in_seq in Hi. apply pw_pos, inv_nat_pos. lia. }
    assert (Hwne : ws <> []). { unfold ws, rank_weights. rewrite E. simpl. discriminate. }
    pose proof (qsum_pos ws Hwne Hws) as Hpos.
    exists m'. eexists. split; [reflexivity|].
    split; [exact P|]. split; [exact (sort_desc_sorted (store m))|].
    split; [unfold ws, rank_weights; now rewrite !map_length, seq_length|].
    split.
    { intros p Hp. apply in_map_iff in Hp. destruct Hp as (w & <- & Hw).
      apply Qlt_shift_div_l; auto. pose proof (Hws w Hw). lra. }
    split.
    { rewrite qsum_div by lra. field. lra. }
    intros i j p q Hij Hi Hj.
    assert (Get : forall i p, nth_error (map (fun w => (w / qsum ws)%Q) ws) i = Some p ->
              p = (pw (1 / inject_Z (Z.of_nat (1 + i))) / qsum ws)%Q).
    { intros k r Hk. rewrite nth_error_map in Hk. unfold ws at 2 in Hk. unfold rank_weights in Hk.
      rewrite nth_error_map in Hk.
      destruct (nth_error (seq 1 (length (store m'))) k) as [x|] eqn:Ex; [|discriminate].
      assert (x = 1 + k).
      { assert (k < length (store m')).
        { rewrite <- (seq_length (length (store m')) 1). apply nth_error_Some. congruence. }
        apply nth_error_nth with (d := 0) in Ex. rewrite seq_nth in Ex by auto. lia. }
      subst x. simpl in Hk. injection Hk as <-. reflexivity. }
    rewrite (Get i p Hi), (Get j q Hj).
    unfold Qdiv at 1 3. apply Qmult_le_compat_r.
    - apply pw_mono.
      + apply inv_nat_pos. lia.
      + apply inv_nat_anti. lia.
    - apply Qlt_le_weak, Qinv_lt_0_compat, Hpos.
  Qed.
End Prior.
