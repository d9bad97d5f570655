From Coq Require Import List Arith ZArith QArith Bool Lia Lqa Permutation.
From Verif Require Import Base BaseFacts SegTree_Model SegTree_Spec SegTree_Proofs SegTree_Facts
  Replay_Model Replay_Spec.
Import ListNotations.
Open Scope nat_scope.

Lemma mod_distinct s a b : a < b -> b < a + s -> a mod s <> b mod s.
Proof.
  intros H1 H2 E. assert (s <> 0) by lia.
  pose proof (Nat.div_mod a s H). pose proof (Nat.div_mod b s H).
  pose proof (Nat.mod_upper_bound a s H).
  assert (a / s = b / s \/ a / s < b / s \/ b / s < a / s) as [|[|]] by lia; nia.
Qed.

Lemma mod_distinct' s a b : a <> b -> b < a + s -> a < b + s -> a mod s <> b mod s.
Proof.
  intros H1 H2 H3. destruct (Nat.lt_ge_cases a b).
  - now apply mod_distinct.
  - apply not_eq_sym. apply mod_distinct; lia.
Qed.

Lemma Permutation_map_Some {A} (l1 l2 : list A) :
  Permutation (map Some l1) (map Some l2) -> Permutation l1 l2.
Proof.
  intros H. apply Permutation_map_inv in H. destruct H as (l3 & E & P).
  assert (l1 = l3).
  { clear P. revert l3 E. induction l1; destruct l3; simpl; intros; try discriminate; auto.
    injection E as -> E. f_equal; auto. }
  subst. now symmetry.
Qed.

Lemma map_nth_error_seq {A} (l : list A) : forall off pre,
  length pre = off ->
  map (nth_error (pre ++ l)) (seq off (length l)) = map Some l.
Proof.
  induction l as [|a l IH]; intros off pre H; simpl; auto.
  f_equal.
  - rewrite nth_error_app2 by lia. rewrite H, Nat.sub_diag. reflexivity.
  - specialize (IH (S off) (pre ++ [a])). rewrite <- app_assoc in IH. apply IH.
    rewrite app_length. simpl. lia.
Qed.

Section Replay.
  Context {Obs Act : Type}.
  Notation T := (transition Obs Act).

  Definition fifo (s : nat) (all : list T) (b : buffer Obs Act) : Prop :=
    let n := length all in
    maxsize b = s /\ length (storage b) = Nat.min n s /\ next_idx b = n mod s /\
    forall t, n - Nat.min n s <= t < n ->
      nth_error (storage b) (t mod s) = nth_error all t.

  Lemma put_fifo s all b d : 1 <= s -> fifo s all b ->
    exists b', put b d = Some b' /\ fifo s (all ++ [d]) b'.
  Proof.
    intros Hs (Hm & Hl & Hn & Hc). set (n := length all) in *.
    unfold put. rewrite Hm.
    destruct (Nat.eqb_spec s 0); [lia|].
    eexists. split; [reflexivity|].
    unfold fifo. rewrite app_length. cbn [length maxsize storage next_idx]. fold n.
    destruct (Nat.lt_ge_cases n s) as [L|L].
    - assert (En : n mod s = n) by (apply Nat.mod_small; lia).
      rewrite Hl, Hn, En. rewrite Nat.min_l by lia.
      rewrite (proj2 (Nat.leb_le n n)) by lia.
      split; [auto|]. split; [rewrite app_length; simpl; lia|]. split.
      { f_equal. }
      intros t Ht.
      rewrite (Nat.min_l (n + 1) s) in Ht by lia.
      rewrite (Nat.mod_small t s) by lia.
      destruct (Nat.eq_dec t n) as [->|].
      + rewrite !nth_error_app2 by (fold n; lia). fold n. rewrite Hl. 
        rewrite Nat.min_l by lia. reflexivity.
      + rewrite !nth_error_app1 by (fold n; lia).
        rewrite <- (Hc t) by lia. now rewrite Nat.mod_small by lia.
    - assert (Hlt : n mod s < s) by (apply Nat.mod_upper_bound; lia).
      rewrite Hl, Hn, Nat.min_r by lia.
      rewrite (proj2 (Nat.leb_gt s (n mod s))) by lia.
      split; [auto|]. split; [rewrite length_set_nth; lia|]. split.
      { rewrite Nat.add_mod_idemp_l by lia. reflexivity. }
      intros t Ht. rewrite (Nat.min_r (n + 1) s) in Ht by lia.
      rewrite nth_error_set_nth, Hl, Nat.min_r by lia.
      destruct (Nat.eq_dec t n) as [->|Ht'].
      + rewrite Nat.eqb_refl. rewrite (proj2 (Nat.ltb_lt _ _) Hlt).
        rewrite nth_error_app2 by (fold n; lia). fold n. rewrite Nat.sub_diag. reflexivity.
      + destruct (Nat.eqb_spec (t mod s) (n mod s)) as [E|E].
        * exfalso. revert E. apply mod_distinct; lia.
        * rewrite nth_error_app1 by (fold n; lia). apply Hc.
          rewrite Nat.min_r by lia. lia.
  Qed.

  Lemma puts_fifo s : 1 <= s -> forall rows all b, fifo s all b ->
    exists b', ofold put b rows = Some b' /\ fifo s (all ++ rows) b'.
  Proof.
    intros Hs. induction rows as [|d r IH]; intros all b Hf; simpl.
    - exists b. rewrite app_nil_r. auto.
    - destruct (put_fifo s all b d Hs Hf) as (b1 & E & Hf1). rewrite E.
      destruct (IH _ _ Hf1) as (b2 & E2 & Hf2). exists b2. split; auto.
      now rewrite <- app_assoc in Hf2.
  Qed.

  Lemma new_fifo s : fifo s [] (new_buffer s).
  Proof.
    unfold fifo, new_buffer. simpl. split; [auto|]. split; [auto|]. split.
    - destruct s; auto. now rewrite Nat.mod_0_l.
    - intros t Ht. lia.
  Qed.

  Lemma execs_fifo s : 1 <= s -> forall h all b, fifo s all b ->
    exists b', ofold exec b h = Some b' /\ fifo s (all ++ flat_map given h) b'.
  Proof.
    intros Hs. induction h as [|c r IH]; intros all b Hf; simpl.
    - exists b. rewrite app_nil_r. auto.
    - assert (H : exists b1, exec b c = Some b1 /\ fifo s (all ++ given c) b1).
      { destruct c; simpl.
        - unfold add. now apply put_fifo.
        - unfold extend. now apply puts_fifo. }
      destruct H as (b1 & E & Hf1). rewrite E.
      destruct (IH _ _ Hf1) as (b2 & E2 & Hf2). exists b2. split; auto.
      now rewrite <- app_assoc in Hf2.
  Qed.

  Lemma fifo_perm s all b : 1 <= s -> fifo s all b ->
    Permutation (storage b) (last_n (Nat.min (length all) s) all).
  Proof.
    intros Hs (Hm & Hl & Hn & Hc). set (n := length all) in *.
    set (k := Nat.min n s) in *.
    apply Permutation_map_Some.
    rewrite <- (map_nth_error_seq (storage b) 0 []) by reflexivity.
    unfold last_n. fold n.
    assert (Hlk : length (skipn (n - k) all) = k) by (rewrite skipn_length; fold n; lia).
    rewrite <- (map_nth_error_seq (skipn (n - k) all) (n - k) (firstn (n - k) all)).
    2:{ rewrite firstn_length. fold n. lia. }
    rewrite firstn_skipn, Hlk. simpl app. rewrite Hl.
    assert (E : map (nth_error all) (seq (n - k) k) =
                map (nth_error (storage b)) (map (fun t => t mod s) (seq (n - k) k))).
    { rewrite map_map. apply map_ext_in. intros t Ht. apply in_seq in Ht.
      symmetry. apply Hc. fold k. lia. }
    rewrite E. apply Permutation_map.
    apply Permutation_sym, NoDup_Permutation_bis.
    - assert (G : forall off, (forall t, In t (seq off k) -> True) -> NoDup (map (fun t => t mod s) (seq off k))).
      { assert (Hk : k <= s) by lia. clearbody k. clear - Hk Hs.
        induction k as [|k IH]; intros off _; simpl; constructor.
        - intro H. apply in_map_iff in H. destruct H as (t & E & Ht). apply in_seq in Ht.
          revert E. apply not_eq_sym. apply mod_distinct; lia.
        - apply IH; [lia|auto]. }
      apply G. auto.
    - rewrite map_length, !seq_length. lia.
    - intros x Hx. apply in_map_iff in Hx. destruct Hx as (t & <- & Ht). apply in_seq in Ht.
      apply in_seq. split; [lia|].
      destruct (Nat.lt_ge_cases n s).
      + assert (k = n) by lia. rewrite Nat.mod_small by lia. lia.
      + assert (k = s) by lia. rewrite H0. apply Nat.mod_upper_bound. lia.
  Qed.

  Lemma gather_spec (st : list T) : forall idxes ds, gather st idxes = Some ds ->
    Forall2 (fun i d => nth_error st i = Some d) idxes ds.
  Proof.
    induction idxes as [|i r IH]; simpl; intros ds H.
    - injection H as <-. constructor.
    - destruct (nth_error st i) eqn:E; [|discriminate].
      destruct (gather st r) eqn:E2; [|discriminate]. injection H as <-.
      constructor; auto.
  Qed.

  Lemma gather_total (st : list T) : forall idxes, (forall i, In i idxes -> i < length st) ->
    exists ds, gather st idxes = Some ds.
  Proof.
    induction idxes as [|i r IH]; simpl; intros H.
    - eauto.
    - destruct IH as (ds & E); auto. rewrite E.
      destruct (nth_error st i) eqn:E2; [eauto|].
      apply nth_error_None in E2. specialize (H i (or_introl eq_refl)). lia.
  Qed.

  Lemma zip5_unzip (ds : list T) :
    zip5 (map (fun d => let '(o,a,r,o',f) := d in o) ds)
         (map (fun d => let '(o,a,r,o',f) := d in a) ds)
         (map (fun d => let '(o,a,r,o',f) := d in r) ds)
         (map (fun d => let '(o,a,r,o',f) := d in o') ds)
         (map (fun d => let '(o,a,r,o',f) := d in f) ds) = ds.
  Proof.
    induction ds as [|[[[[o a] r] o'] f] ds IH]; simpl; auto. now rewrite IH.
  Qed.

  Lemma zip5_nth os : forall (acts : list Act) rs (os' : list Obs) ds i,
    nth_error (zip5 os acts rs os' ds) i =
    match nth_error os i, nth_error acts i, nth_error rs i, nth_error os' i, nth_error ds i with
    | Some o, Some a, Some r, Some o', Some d => Some (o, a, r, o', d)
    | _, _, _, _, _ => None
    end.
  Proof.
    induction os as [|o os IH]; intros acts rs os' ds i; simpl.
    - destruct i; reflexivity.
    - destruct acts; [|destruct rs; [|destruct os'; [|destruct ds]]]; destruct i; simpl; auto;
        repeat match goal with |- context [match nth_error ?l i with _ => _ end] => destruct (nth_error l i) end; auto.
  Qed.

  (** *** C04 *)
  Lemma replay_fifo : forall (s : nat) (h : list (@call Obs Act)), 1 <= s ->
    exists b, ofold exec (new_buffer s) h = Some b /\
      let all := flat_map given h in
      let n := length all in
      length (storage b) = Nat.min n s /\
      Permutation (storage b) (last_n (Nat.min n s) all) /\
      (forall t, n - Nat.min n s <= t < n -> nth_error (storage b) (t mod s) = nth_error all t) /\
      (is_full b = true <-> s <= n) /\
      (forall k, can_sample b k = true <-> k <= Nat.min n s).
  Proof.
    intros s h Hs. destruct (execs_fifo s Hs h [] (new_buffer s) (new_fifo s)) as (b & E & Hf).
    simpl in Hf. exists b. split; auto. cbv zeta.
    pose proof (fifo_perm s _ b Hs Hf) as Hp.
    destruct Hf as (Hm & Hl & Hn & Hc).
    split; [auto|]. split; [auto|]. split; [auto|]. split.
    - unfold is_full. rewrite Hm, Hl, Nat.eqb_eq. lia.
    - intros k. unfold can_sample. rewrite Hl, Nat.leb_le. reflexivity.
  Qed.

  Lemma replay_sample : forall (s : nat) (h : list (@call Obs Act)) b draws, 1 <= s ->
    ofold exec (new_buffer s) h = Some b ->
    (forall i, In i draws -> i < length (storage b)) ->
    exists os acts rs os' ds, sample b draws = Some (os, acts, rs, os', ds) /\
      let rows := zip5 os acts rs os' ds in
      length rows = length draws /\ length os = length draws /\ length acts = length draws /\
      length rs = length draws /\ length os' = length draws /\ length ds = length draws /\
      (forall j i, nth_error draws j = Some i -> nth_error rows j = nth_error (storage b) i) /\
      (forall d, In d rows -> In d (last_n (Nat.min (length (flat_map given h)) s) (flat_map given h))).
  Proof.
    intros s h b draws Hs Hb Hd.
    destruct (replay_fifo s h Hs) as (b' & E & Hlen & Hp & _). assert (b' = b) by congruence. subst b'.
    destruct (gather_total (storage b) draws Hd) as (ds & Eg).
    unfold sample. destruct ((length (storage b) =? 0) && negb (length draws =? 0)) eqn:Ez.
    { apply andb_true_iff in Ez. destruct Ez as [E1 E2]. apply Nat.eqb_eq in E1.
      destruct draws as [|i r]; [discriminate|]. specialize (Hd i (or_introl eq_refl)). lia. }
    unfold encode_sample. rewrite Eg.
    do 5 eexists. split; [reflexivity|]. cbv zeta. rewrite zip5_unzip, !map_length.
    apply gather_spec in Eg.
    assert (Hlen2 : length ds = length draws) by (symmetry; eapply Forall2_length; eauto).
    do 6 (split; [auto|]). split.
    - clear - Eg. induction Eg; intros [|j] i0 H0; simpl in *; try discriminate.
      + injection H0 as ->. auto.
      + auto.
    - intros d Hin. eapply Permutation_in; [exact Hp|].
      clear - Eg Hin. induction Eg; simpl in *; [tauto|]. destruct Hin as [<-|]; auto.
      eapply nth_error_In; eauto.
  Qed.

  (** *** Prioritized buffer *)
  Section Per.
    Variable pw : Q -> Q.
    Variables (fuel k s : nat).
    Hypothesis Hs : 1 <= s.
    Hypothesis Hsk : s <= 2 ^ k.
    Hypothesis Hkf : k < fuel.
    Hypothesis Hsf : s <= fuel.

    Definition finw (w : list (nat * Q)) := map (fun iv => (fst iv, Fin (snd iv))) w.

    Definition trees (w : list (nat * Q)) (p : per Obs Act) : Prop :=
      good Qplus k (it_sum p) (array_after (fun _ => 0%Q) w) /\
      good ext_min k (it_min p) (array_after (fun _ => PInf) (finw w)).

    Lemma set_prio_spec w p ivs : trees w p -> ivs <> [] ->
      (forall iv, In iv ivs -> fst iv < s) ->
      exists p', set_prio fuel p ivs = Done p' /\ trees (w ++ ivs) p' /\
                 base p' = base p /\ max_priority p' = max_priority p.
    Proof.
      intros [H1 H2] Hne Hlt. unfold set_prio.
      destruct (setitems_spec Qplus k fuel (it_sum p) _ ivs H1 Hne) as (s' & E1 & G1).
      { intros iv Hiv. specialize (Hlt iv Hiv). lia. } { auto. }
      rewrite E1. cbn [obind].
      destruct (setitems_spec ext_min k fuel (it_min p) _ (finw ivs) H2) as (m' & E2 & G2).
      { destruct ivs; [congruence|discriminate]. }
      { intros iv Hiv. unfold finw in Hiv. apply in_map_iff in Hiv. destruct Hiv as (x & <- & Hx).
        specialize (Hlt x Hx). simpl. lia. } { auto. }
      unfold finw in E2 at 1. rewrite E2. cbn [obind].
      eexists. split; [reflexivity|]. split; [|auto].
      split; simpl.
      - now rewrite array_after_app.
      - unfold finw. rewrite map_app. fold (finw w) (finw ivs). now rewrite array_after_app.
    Qed.

    Definition pinv (w : list (nat * Q)) (all : list T) (m : Q) (p : per Obs Act) : Prop :=
      trees w p /\ fifo s all (base p) /\ max_priority p = m.

    Lemma per_add_spec w all m p d : pinv w all m p ->
      exists p', per_add pw fuel p d = Done p' /\
        pinv (w ++ [(length all mod s, pw m)]) (all ++ [d]) m p'.
    Proof.
      intros (Ht & Hf & Hm). unfold per_add.
      destruct (put_fifo s all (base p) d Hs Hf) as (b & E & Hf'). rewrite E.
      pose proof Hf as (_ & _ & Hn & _). rewrite Hn, Hm.
      destruct (set_prio_spec w (with_base p b) [(length all mod s, pw m)]) as (p' & E' & Ht' & Hb & Hm').
      - exact Ht.
      - discriminate.
      - intros iv [<-|[]]. simpl. apply Nat.mod_upper_bound. lia.
      - exists p'. split; [exact E'|]. split; [exact Ht'|]. split.
        + rewrite Hb. exact Hf'.
        + rewrite Hm'. exact Hm.
    Qed.

    Lemma extend_loop_spec all m : forall j n w p i,
      pinv w all m p -> i + j = length all -> j < s -> j <= n ->
      exists p', extend_loop pw fuel n p (i mod s) = Done p' /\
        pinv (w ++ map (fun t => (t mod s, pw m)) (seq i j)) all m p'.
    Proof.
      induction j as [|j IH]; intros n w p i Hp Hij Hjs Hjn;
        pose proof Hp as (Ht & Hf & Hm); pose proof Hf as (Hms & _ & Hn & _).
      - exists p. rewrite app_nil_r. split; auto.
        destruct n; simpl; rewrite Hn; rewrite Nat.add_0_r in Hij; subst i; now rewrite Nat.eqb_refl.
      - destruct n as [|n]; [lia|]. simpl extend_loop. rewrite Hn.
        destruct (Nat.eqb_spec (i mod s) (length all mod s)) as [E|E].
        { exfalso. revert E. apply mod_distinct; lia. }
        destruct (set_prio_spec w p [(i mod s, pw (max_priority p))]) as (p' & E' & Ht' & Hb & Hm').
        + exact Ht.
        + discriminate.
        + intros iv [<-|[]]. simpl. apply Nat.mod_upper_bound. lia.
        + rewrite E'. cbn [obind]. rewrite Hms.
          rewrite Nat.add_mod_idemp_l by lia.
          destruct (IH n (w ++ [(i mod s, pw m)]) p' (i + 1)) as (p2 & E2 & Hp2); try lia.
          { split; [rewrite <- Hm; exact Ht'|]. split; [now rewrite Hb|]. rewrite Hm'. exact Hm. }
          exists p2. split; [exact E2|]. rewrite <- app_assoc in Hp2. simpl in Hp2.
          simpl. now rewrite Nat.add_1_r in Hp2.
    Qed.

    Lemma per_extend_spec w all m p rows : pinv w all m p -> length rows < s ->
      exists p', per_extend pw fuel p rows = Done p' /\
        pinv (w ++ map (fun t => (t mod s, pw m)) (seq (length all) (length rows))) (all ++ rows) m p'.
    Proof.
      intros (Ht & Hf & Hm) Hl. unfold per_extend.
      destruct (puts_fifo s Hs rows all (base p) Hf) as (b & E & Hf'). rewrite E.
      pose proof Hf as (_ & _ & Hn & _). rewrite Hn.
      apply extend_loop_spec.
      - split; [exact Ht|]. split; [exact Hf'|exact Hm].
      - now rewrite app_length.
      - exact Hl.
      - lia.
    Qed.

    Lemma update_spec w all m p is ps : pinv w all m p ->
      is <> [] -> length is = length ps -> (forall p, In p ps -> (0 < p)%Q) ->
      (forall i, In i is -> i < Nat.min (length all) s) ->
      exists p', update_priorities pw fuel p is ps = Done p' /\
        pinv (w ++ combine is (map pw ps)) all (max_given m ps) p'.
    Proof.
      intros (Ht & Hf & Hm) Hne Hl Hpos Hlt. unfold update_priorities.
      pose proof Hf as (_ & Hlen & _).
      match goal with |- context [if ?b then _ else _] => replace b with true end.
      2:{ symmetry. rewrite !andb_true_iff. repeat split.
          - now apply Nat.eqb_eq.
          - destruct is; [congruence|reflexivity].
          - apply forallb_forall. intros x Hx. apply Qltb_lt. auto.
          - apply forallb_forall. intros x Hx. apply Nat.ltb_lt. rewrite Hlen. auto. }
      destruct (set_prio_spec w p (combine is (map pw ps))) as (p' & E' & Ht' & Hb & Hm').
      - exact Ht.
      - destruct is, ps; simpl in *; congruence.
      - intros [i x] Hin. apply in_combine_l in Hin. specialize (Hlt i Hin). simpl. lia.
      - rewrite E'. cbn [obind]. eexists. split; [reflexivity|].
        split; [exact Ht'|]. split; simpl.
        + now rewrite Hb.
        + rewrite Hm', Hm. reflexivity.
    Qed.

    Lemma pexecs_spec : forall h w all m p, pinv w all m p -> contract s (length all) h ->
      exists p', pexecs pw fuel p h = Done p' /\
        pinv (w ++ prio_writes pw s (length all) m h) (all ++ flat_map pgiven h) (max_prio m h) p'.
    Proof.
      induction h as [|c r IH]; intros w all m p Hp Hc; simpl.
      - exists p. rewrite !app_nil_r. auto.
      - destruct c as [t|rows|is ps]; simpl in Hc; simpl pexec.
        + destruct (per_add_spec w all m p t Hp) as (p1 & E1 & Hp1). rewrite E1. cbn [obind].
          destruct (IH _ _ _ _ Hp1) as (p2 & E2 & Hp2).
          { now rewrite app_length. }
          exists p2. split; [exact E2|]. rewrite app_length in Hp2.
          rewrite <- !app_assoc in Hp2. simpl in *. exact Hp2.
        + destruct Hc as [Hl Hc].
          destruct (per_extend_spec w all m p rows Hp Hl) as (p1 & E1 & Hp1). rewrite E1. cbn [obind].
          destruct (IH _ _ _ _ Hp1) as (p2 & E2 & Hp2).
          { now rewrite app_length. }
          exists p2. split; [exact E2|]. rewrite app_length in Hp2.
          rewrite <- !app_assoc in Hp2. simpl in *. exact Hp2.
        + destruct Hc as (Hne & Hl & Hpos & Hlt & Hc).
          destruct (update_spec w all m p is ps Hp Hne Hl Hpos Hlt) as (p1 & E1 & Hp1).
          rewrite E1. cbn [obind].
          destruct (IH _ _ _ _ Hp1 Hc) as (p2 & E2 & Hp2).
          exists p2. split; [exact E2|]. now rewrite <- !app_assoc in Hp2.
    Qed.
  End Per.

  (** *** Where the writes go *)
  Section Writes.
    Variable pw : Q -> Q.
    Hypothesis pw_pos : forall x, (0 < x)%Q -> (0 < pw x)%Q.
    Variable s : nat.
    Hypothesis Hs : 1 <= s.

    Lemma max_given_ge ps : forall m, (m <= max_given m ps)%Q /\ (forall p, In p ps -> (p <= max_given m ps)%Q)
        /\ (max_given m ps = m \/ In (max_given m ps) ps).
    Proof.
      induction ps as [|x r IH]; intros m; unfold max_given in *; simpl.
      - split; [lra|]. split; [tauto|]. auto.
      - specialize (IH (if Qle_bool x m then m else x)). destruct IH as (H1 & H2 & H3).
        destruct (Qle_bool x m) eqn:E; qprop.
        + split; [lra|]. split.
          * intros p [<-|Hp]; [lra|auto].
          * destruct H3; auto.
        + split; [lra|]. split.
          * intros p [<-|Hp]; [lra|auto].
          * destruct H3 as [H3|H3]; auto.
    Qed.

    Definition wpos (w : list (nat * Q)) := forall iv, In iv w -> (0 < snd iv)%Q.

    Lemma prio_writes_pos : forall h n m, (0 < m)%Q -> contract s n h -> wpos (prio_writes (Obs:=Obs) (Act:=Act) pw s n m h).
    Proof.
      induction h as [|c r IH]; intros n m Hm Hc iv Hin; simpl in Hin; [destruct Hin|].
      destruct c as [t|rows|is ps]; simpl in Hc, Hin.
      - destruct Hin as [<-|Hin]; [simpl; auto|]. eapply IH; eauto.
      - apply in_app_iff in Hin. destruct Hin as [Hin|Hin].
        + apply in_map_iff in Hin. destruct Hin as (t & <- & _). simpl. auto.
        + destruct Hc. eapply IH; eauto.
      - destruct Hc as (Hne & Hl & Hpos & Hlt & Hc).
        apply in_app_iff in Hin. destruct Hin as [Hin|Hin].
        + destruct iv as [i x]. apply in_combine_r in Hin. apply in_map_iff in Hin.
          destruct Hin as (y & <- & Hy). simpl. auto.
        + eapply IH; [|exact Hc|exact Hin]. destruct (max_given_ge ps m) as [H1 _]. lra.
    Qed.

    Lemma prio_writes_fst : forall h n m i, contract s n h ->
      n <= n + length (flat_map (pgiven (Obs:=Obs) (Act:=Act)) h) ->
      let N := n + length (flat_map pgiven h) in
      (In i (map fst (prio_writes pw s n m h)) -> i < Nat.min N s) /\
      (i < Nat.min N s -> Nat.min n s <= i -> In i (map fst (prio_writes pw s n m h))).
    Proof.
      induction h as [|c r IH]; intros n m i Hc _; simpl.
      - split; [tauto|]. intros. lia.
      - assert (Gen : forall L (r:list (@pcall Obs Act)), 
            (let N := n + L + length (flat_map pgiven r) in
             (In i (map fst (prio_writes pw s (n + L) m r)) -> i < Nat.min N s) /\
             (i < Nat.min N s -> Nat.min (n + L) s <= i -> In i (map fst (prio_writes pw s (n + L) m r)))) ->
            let N := n + (L + length (flat_map pgiven r)) in
            let w := map (fun t => (t mod s, pw m)) (seq n L) ++ prio_writes pw s (n + L) m r in
            (In i (map fst w) -> i < Nat.min N s) /\
            (i < Nat.min N s -> Nat.min n s <= i -> In i (map fst w))).
        { clear - Hs. intros L r [H1 H2]. cbv zeta. rewrite map_app, map_map. simpl.
          rewrite Nat.add_assoc. rewrite in_app_iff. split.
          - intros [Hin|Hin]; [|auto].
            apply in_map_iff in Hin. destruct Hin as (t & <- & Ht). apply in_seq in Ht.
            destruct (Nat.lt_ge_cases t s).
            + rewrite Nat.mod_small by lia. lia.
            + assert (n0 : s <> 0) by lia.
              pose proof (Nat.mod_upper_bound t s n0). lia.
          - intros Hi Hn. destruct (Nat.lt_ge_cases i (n + L)).
            + left. apply in_map_iff. exists i. rewrite Nat.mod_small by lia. split; auto.
              apply in_seq. lia.
            + right. apply H2; lia. }
        destruct c as [t|rows|is ps]; simpl in Hc; simpl pgiven.
        + rewrite app_length. apply (Gen 1 r). apply IH; [exact Hc|lia].
        + rewrite app_length. apply (Gen (length rows) r). destruct Hc. apply IH; [auto|lia].
        + destruct Hc as (Hne & Hl & Hpos & Hlt & Hc).
          rewrite map_app, in_app_iff. simpl app.
          specialize (IH n (max_given m ps) i Hc ltac:(lia)). cbv zeta in IH. destruct IH as [IH1 IH2]. split.
          * intros [Hin|Hin]; [|auto]. apply in_map_iff in Hin. destruct Hin as ([j x] & <- & Hin).
            apply in_combine_l in Hin. simpl. specialize (Hlt j Hin). lia.
          * intros. right. auto.
    Qed.
  End Writes.

  Lemma array_after_in {V} (w : list (nat * V)) : forall a i, In i (map fst w) ->
    In (i, array_after a w i) w.
  Proof.
    induction w as [|[j x] r IH]; simpl; intros a i H; [tauto|].
    unfold array_after in *. simpl.
    destruct (in_dec Nat.eq_dec i (map fst r)) as [Hr|Hr].
    - right. now apply IH.
    - destruct H as [->|H]; [|tauto]. left. f_equal.
      assert (G : forall (a : nat -> V), ~ In i (map fst r) ->
         fold_left (fun a w j => if Nat.eqb j (fst w) then snd w else a j) r a i = a i).
      { clear. induction r as [|[j x] r IH]; simpl; intros a H; auto.
        rewrite IH by tauto. destruct (Nat.eqb_spec i j); auto. subst; tauto. }
      rewrite G by auto. now rewrite Nat.eqb_refl.
  Qed.

  Lemma array_after_notin {V} (w : list (nat * V)) : forall a i, ~ In i (map fst w) ->
    array_after a w i = a i.
  Proof.
    unfold array_after. induction w as [|[j x] r IH]; simpl; intros a i H; auto.
    rewrite IH by tauto. destruct (Nat.eqb_spec i j); auto. subst; tauto.
  Qed.

  Lemma array_after_finw (w : list (nat * Q)) : forall a b i,
    (a i = Fin (b i) \/ In i (map fst w)) ->
    array_after a (finw w) i = Fin (array_after b w i).
  Proof.
    unfold array_after, finw. induction w as [|[j x] r IH]; simpl; intros a b i H.
    - destruct H; [auto|tauto].
    - apply IH. destruct (Nat.eqb_spec i j); auto. destruct H as [|[|]]; auto. congruence.
  Qed.

  Lemma it_capacity_spec : forall n c size, 1 <= c -> size <= c * 2 ^ n -> (exists k, c = 2 ^ k) ->
    exists k, it_capacity n c size = Some (2 ^ k) /\ size <= 2 ^ k.
  Proof.
    induction n as [|n IH]; intros c size Hc Hsz (k & Hk); simpl; destruct (Nat.ltb_spec c size).
    - simpl in Hsz. lia.
    - exists k. subst. auto.
    - apply IH; [lia| |].
      + simpl in Hsz. lia.
      + exists (S k). simpl. lia.
    - exists k. subst. auto.
  Qed.

  Lemma it_capacity_bound : forall n c size r, it_capacity n c size = Some r -> 1 <= size ->
    c < 2 * size -> r < 2 * size.
  Proof.
    induction n as [|n IH]; intros c size r H Hs Hc; simpl in H; destruct (Nat.ltb_spec c size); try discriminate;
      try (injection H as <-; lia).
    eapply IH; [exact H| |]; lia.
  Qed.

  Lemma new_per_spec (size : nat) : 1 <= size ->
    exists p k, new_per size = Some p /\ size <= 2 ^ k < 2 * size /\
      trees k [] p /\ fifo size [] (base p) /\ max_priority p = 1%Q.
  Proof.
    intros Hs. unfold new_per.
    destruct (it_capacity_spec size 1 size) as (k & E & Hk); auto.
    { rewrite Nat.mul_1_l. pose proof (lt_pow2 size). lia. }
    { exists 0. reflexivity. }
    pose proof (it_capacity_bound _ _ _ _ E Hs ltac:(lia)).
    rewrite E. unfold new_sum_tree, new_min_tree. rewrite !pow2_new_tree.
    eexists _, k. split; [reflexivity|]. split; [lia|]. split; [|split; [apply new_fifo|reflexivity]].
    split; simpl; now apply new_tree_good.
  Qed.

  (** Everything known about a prioritized buffer reached by a history. *)
  Lemma per_reach (pw : Q -> Q) (pw_pos : forall x, (0 < x)%Q -> (0 < pw x)%Q)
        (size : nat) (h : list (@pcall Obs Act)) fuel :
    1 <= size -> 2 * size <= fuel -> contract size 0 h ->
    exists p0 p k, new_per size = Some p0 /\ pexecs pw fuel p0 h = Done p /\
      size <= 2 ^ k /\ 2 ^ k < 2 * size /\ k < fuel /\
      let w := prio_writes pw size 0 1 h in
      let all := flat_map pgiven h in
      let len := Nat.min (length all) size in
      fifo size all (base p) /\
      good Qplus k (it_sum p) (array_after (fun _ => 0%Q) w) /\
      good ext_min k (it_min p) (array_after (fun _ => PInf) (finw w)) /\
      max_priority p = max_prio 1 h /\
      (forall i, i < len -> (0 < array_after (fun _ => 0%Q) w i)%Q /\
          array_after (fun _ => PInf) (finw w) i = Fin (array_after (fun _ => 0%Q) w i)) /\
      (forall i, len <= i -> array_after (fun _ => 0%Q) w i = 0%Q /\
          array_after (fun _ => PInf) (finw w) i = PInf).
  Proof.
    intros Hs Hf Hc. destruct (new_per_spec size Hs) as (p0 & k & E0 & Hk & Ht & Hfi & Hm).
    pose proof (lt_pow2 k).
    destruct (pexecs_spec pw fuel k size Hs ltac:(lia) ltac:(lia) ltac:(lia) h [] [] 1%Q p0)
      as (p & E & (Ht1 & Ht2) & Hf' & Hm'); auto.
    { split; auto. }
    exists p0, p, k. split; [auto|]. split; [auto|]. split; [lia|]. split; [lia|]. split; [lia|].
    cbv zeta. set (w := prio_writes pw size 0 1 h) in *.
    simpl in Hf', Ht1, Ht2.
    split; [exact Hf'|]. split; [exact Ht1|]. split; [exact Ht2|]. split; [exact Hm'|].
    pose proof (prio_writes_pos pw pw_pos size h 0 1%Q ltac:(lra) Hc) as Hwp. fold w in Hwp.
    split.
    - intros i Hi.
      pose proof (prio_writes_fst pw size Hs h 0 1%Q i Hc ltac:(lia)) as [_ Hin]. simpl in Hin.
      specialize (Hin Hi ltac:(lia)). fold w in Hin. split.
      + pose proof (array_after_in w (fun _ => 0%Q) i Hin) as Hin2. apply (Hwp _ Hin2).
      + apply array_after_finw. now right.
    - intros i Hi.
      pose proof (prio_writes_fst pw size Hs h 0 1%Q i Hc ltac:(lia)) as [Hin _]. simpl in Hin.
      assert (Hnin : ~ In i (map fst w)) by (intro Hx; specialize (Hin Hx); lia).
      split.
      + rewrite array_after_notin by exact Hnin. reflexivity.
      + rewrite array_after_notin; [reflexivity|]. unfold finw. rewrite map_map. simpl. exact Hnin.
  Qed.
End Replay.
