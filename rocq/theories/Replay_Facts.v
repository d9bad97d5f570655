(** Property-level lemmas about the prioritized replay buffer. *)
From Coq Require Import List Arith ZArith QArith Bool Lia Lqa Permutation.
From Verif Require Import Base BaseFacts SegTree_Model SegTree_Spec SegTree_Proofs SegTree_Facts
  Replay_Model Replay_Spec Replay_Proofs.
Import ListNotations.
Open Scope nat_scope.

Section Facts.
  Context {Obs Act : Type}.
  Notation T := (transition Obs Act).
  Variable pw : Q -> Q.
  Hypothesis pw_pos : forall x, (0 < x)%Q -> (0 < pw x)%Q.

  Lemma good_getitem {V} (op : V -> V -> V) k t a i : good op k t a -> i < 2 ^ k -> getitem t i = Done (a i).
  Proof.
    intros (Hc & _ & Hl) Hi. unfold getitem. rewrite Hc, (proj2 (Nat.ltb_lt _ _) Hi).
    now rewrite <- Hl, Hc.
  Qed.

  (** C05 *)
  Lemma per_priorities (size : nat) (h : list (@pcall Obs Act)) fuel :
    1 <= size -> 2 * size <= fuel -> contract size 0 h ->
    exists p0 p, new_per size = Some p0 /\ pexecs pw fuel p0 h = Done p /\
      let prio := array_after (fun _ => 0%Q) (prio_writes pw size 0 1 h) in
      let all := flat_map pgiven h in
      let len := Nat.min (length all) size in
      length (storage (base p)) = len /\
      Permutation (storage (base p)) (last_n len all) /\
      max_priority p = max_prio 1 h /\
      (forall i, i < len -> getitem (it_sum p) i = Done (prio i) /\
                            getitem (it_min p) i = Done (Fin (prio i)) /\ (0 < prio i)%Q) /\
      (forall i, len <= i < size -> getitem (it_sum p) i = Done 0%Q /\
                                    getitem (it_min p) i = Done PInf).
  Proof.
    intros Hs Hf Hc.
    destruct (per_reach pw pw_pos size h fuel Hs Hf Hc)
      as (p0 & p & k & E0 & E & Hk1 & Hk2 & Hkf & Hfi & G1 & G2 & Hm & Hin & Hout).
    exists p0, p. split; [auto|]. split; [auto|]. cbv zeta.
    split. { apply Hfi. }
    split. { now apply fifo_perm. }
    split; [exact Hm|]. split.
    - intros i Hi. destruct (Hin i Hi) as [H1 H2].
      rewrite (good_getitem _ _ _ _ i G1) by lia.
      rewrite (good_getitem _ _ _ _ i G2) by lia.
      rewrite H2. auto.
    - intros i Hi. destruct (Hout i ltac:(lia)) as [H1 H2].
      rewrite (good_getitem _ _ _ _ i G1) by lia.
      rewrite (good_getitem _ _ _ _ i G2) by lia.
      rewrite H1, H2. auto.
  Qed.

  (** A batch whose length is a multiple of the buffer size gets no priorities. *)
  Lemma per_extend_full (size : nat) (h : list (@pcall Obs Act)) (rows : list T) fuel p0 p :
    1 <= size -> 2 * size <= fuel -> contract size 0 h ->
    new_per size = Some p0 -> pexecs pw fuel p0 h = Done p ->
    length rows mod size = 0 ->
    exists b, per_extend pw fuel p rows = Done (mkPer b (it_sum p) (it_min p) (max_priority p)) /\
      Permutation (storage b) (last_n (Nat.min (length (flat_map pgiven h ++ rows)) size)
                                      (flat_map pgiven h ++ rows)).
  Proof.
    intros Hs Hf Hc E0 E Hr.
    destruct (per_reach pw pw_pos size h fuel Hs Hf Hc)
      as (p0' & p' & k & E0' & E' & Hk1 & Hk2 & Hkf & Hfi & _).
    assert (p0' = p0) by congruence. subst p0'. assert (p' = p) by congruence. subst p'.
    destruct (puts_fifo size Hs rows _ _ Hfi) as (b & Eb & Hfb).
    exists b. split; [|now apply fifo_perm].
    unfold per_extend. rewrite Eb.
    destruct fuel as [|fuel]; [lia|]. unfold extend_loop. cbn [base with_base].
    pose proof Hfi as (_ & _ & Hn1 & _). pose proof Hfb as (_ & _ & Hn2 & _).
    rewrite Hn1, Hn2. rewrite app_length, Nat.add_mod, Hr, Nat.add_0_r, Nat.mod_mod by lia.
    now rewrite Nat.eqb_refl.
  Qed.

  (** C06 *)
  Lemma prefix_sum_pos (a : nat -> Q) n : 1 <= n -> (forall i, (0 <= a i)%Q) -> (0 < a 0%nat)%Q -> (0 < prefix_sum a n)%Q.
  Proof.
    intros Hn Ha H0. pose proof (prefix_sum_mono a Ha 1 n Hn). simpl in H. lra.
  Qed.

  Lemma sample_prop (size : nat) (h : list (@pcall Obs Act)) fuel p0 p us :
    1 <= size -> 2 * size <= fuel -> contract size 0 h ->
    new_per size = Some p0 -> pexecs pw fuel p0 h = Done p ->
    let prio := array_after (fun _ => 0%Q) (prio_writes pw size 0 1 h) in
    let len := length (storage (base p)) in
    2 <= len -> us <> [] -> (forall u, In u us -> (0 <= u < 1)%Q) ->
    exists is, sample_proportional fuel p us = Done is /\
      Forall2 (fun u i => i < len - 1 /\
        (prefix_sum prio i <= u * prefix_sum prio (len - 1))%Q /\
        (u * prefix_sum prio (len - 1) < prefix_sum prio (S i))%Q) us is.
  Proof.
    intros Hs Hf Hc E0 E prio len Hl Hne Hus.
    destruct (per_reach pw pw_pos size h fuel Hs Hf Hc)
      as (p0' & p' & k & E0' & E' & Hk1 & Hk2 & Hkf & Hfi & G1 & G2 & Hm & Hin & Hout).
    assert (p0' = p0) by congruence. subst p0'. assert (p' = p) by congruence. subst p'.
    fold prio in G1, Hin, Hout.
    assert (Elen : len = Nat.min (length (flat_map pgiven h)) size) by (apply Hfi).
    rewrite <- Elen in *.
    assert (Hnn : forall i, (0 <= prio i)%Q).
    { intros i. destruct (Nat.lt_ge_cases i len) as [L|L].
      - destruct (Hin i L). lra.
      - destruct (Hout i L) as [-> _]. lra. }
    unfold sample_proportional. fold len.
    replace (Z.of_nat len - 1)%Z with (Z.of_nat (len - 1)) by lia.
    pose proof (reduce_spec Qplus Qplus_assoc_leibniz k fuel (it_sum p) prio 0 (len - 1) G1 ltac:(lia) ltac:(lia)) as Hr.
    simpl Z.of_nat at 1 in Hr. rewrite Hr. cbn [obind]. clear Hr.
    set (Tt := right_reduce Qplus prio 0 (len - 1 - 0 - 1)).
    assert (HT : (Tt == prefix_sum prio (len - 1))%Q).
    { unfold Tt. rewrite sum_reduce_prefix by lia. simpl prefix_sum at 2. ring. }
    assert (HTp : (0 < prefix_sum prio (len - 1))%Q).
    { apply prefix_sum_pos; auto; [lia|]. apply Hin. lia. }
    pose proof (prefix_sum_mono prio Hnn (len - 1) (2 ^ k) ltac:(lia)) as HTle.
    destruct (find_prefixsum_spec k (it_sum p) prio G1 fuel (map (fun u => (u * Tt)%Q) us)) as (is & Ei & F).
    - destruct k; simpl in *; lia.
    - lia.
    - destruct us; [congruence|discriminate].
    - intros q Hq. apply in_map_iff in Hq. destruct Hq as (u & <- & Hu). specialize (Hus u Hu).
      rewrite HT. split; nra.
    - exists is. split; [exact Ei|].
      assert (F' : Forall2 (fun u i => In u us /\ i < 2 ^ k /\ (prefix_sum prio i <= u * Tt)%Q /\
               (i = 2 ^ k - 1 \/ (u * Tt < prefix_sum prio (S i))%Q)) us is).
      { assert (G : forall us', (forall u, In u us' -> In u us) -> forall is,
            Forall2 (fun p i => i < 2 ^ k /\ (prefix_sum prio i <= p)%Q /\
               (i = 2 ^ k - 1 \/ (p < prefix_sum prio (S i))%Q)) (map (fun u => (u * Tt)%Q) us') is ->
            Forall2 (fun u i => In u us /\ i < 2 ^ k /\ (prefix_sum prio i <= u * Tt)%Q /\
               (i = 2 ^ k - 1 \/ (u * Tt < prefix_sum prio (S i))%Q)) us' is).
        { clear. induction us' as [|u r IH]; simpl; intros Hin is F; inversion F; subst; constructor; auto. }
        apply G; auto. }
      eapply Forall2_impl; [|exact F'].
      intros u i (Hu & Hi & Hlo & Hhi). specialize (Hus u Hu). rewrite HT in *.
      assert (Hi' : i < len - 1).
      { destruct (Nat.lt_ge_cases i (len - 1)); auto. exfalso.
        pose proof (prefix_sum_mono prio Hnn (len - 1) i ltac:(lia)). nra. }
      split; [auto|]. split; [auto|]. destruct Hhi; [lia|auto].
  Qed.

  (** Every slot but the last can come out. *)
  Lemma sample_prop_reach (size : nat) (h : list (@pcall Obs Act)) fuel p0 p i :
    1 <= size -> 2 * size <= fuel -> contract size 0 h ->
    new_per size = Some p0 -> pexecs pw fuel p0 h = Done p ->
    i < length (storage (base p)) - 1 ->
    exists u, (0 <= u < 1)%Q /\ sample_proportional fuel p [u] = Done [i].
  Proof.
    intros Hs Hf Hc E0 E Hi.
    destruct (per_reach pw pw_pos size h fuel Hs Hf Hc)
      as (p0' & p' & k & E0' & E' & Hk1 & Hk2 & Hkf & Hfi & G1 & G2 & Hm & Hin & Hout).
    assert (p0' = p0) by congruence. subst p0'. assert (p' = p) by congruence. subst p'.
    set (prio := array_after (fun _ => 0%Q) (prio_writes pw size 0 1 h)) in *.
    set (len := length (storage (base p))) in *.
    assert (Elen : len = Nat.min (length (flat_map pgiven h)) size) by (apply Hfi).
    rewrite <- Elen in *.
    assert (Hnn : forall i, (0 <= prio i)%Q).
    { intros j. destruct (Nat.lt_ge_cases j len) as [L|L].
      - destruct (Hin j L). lra.
      - destruct (Hout j L) as [-> _]. lra. }
    assert (HTp : (0 < prefix_sum prio (len - 1))%Q).
    { apply prefix_sum_pos; auto; [lia|]. apply Hin. lia. }
    assert (Hpi : (0 < prio i)%Q) by (apply Hin; lia).
    set (TT := prefix_sum prio (len - 1)) in *.
    set (u := (prefix_sum prio i / TT)%Q).
    assert (Hu : (u * TT == prefix_sum prio i)%Q) by (unfold u; field; lra).
    pose proof (prefix_sum_mono prio Hnn (S i) (len - 1) ltac:(lia)) as Hle. simpl in Hle. fold TT in Hle.
    pose proof (prefix_sum_mono prio Hnn 0 i ltac:(lia)) as Hle0. simpl in Hle0.
    assert (Hu1 : (0 <= u < 1)%Q) by (split; nra).
    exists u. split; [exact Hu1|].
    destruct (sample_prop size h fuel p0 p [u] Hs Hf Hc E0 E ltac:(fold len; lia)) as (is & E1 & F).
    - discriminate.
    - intros v [<-|[]]. exact Hu1.
    - inversion F as [|? j ? ? (H1 & H2 & H3) F2]; subst. inversion F2; subst.
      rewrite E1. do 2 f_equal. fold prio len TT in H2, H3. rewrite Hu in *.
      eapply found_unique with (a := prio) (p := prefix_sum prio i); auto.
      + lra.
      + simpl. lra.
  Qed.

  Lemma sample_never_last (size : nat) (h : list (@pcall Obs Act)) fuel p0 p us is :
    1 <= size -> 2 * size <= fuel -> contract size 0 h ->
    new_per size = Some p0 -> pexecs pw fuel p0 h = Done p ->
    2 <= length (storage (base p)) -> us <> [] -> (forall u, In u us -> (0 <= u < 1)%Q) ->
    sample_proportional fuel p us = Done is -> ~ In (length (storage (base p)) - 1) is.
  Proof.
    intros Hs Hf Hc E0 E Hl Hne Hus Ei.
    destruct (sample_prop size h fuel p0 p us Hs Hf Hc E0 E Hl Hne Hus) as (is' & Ei' & F).
    assert (is' = is) by congruence. subst is'. clear - F.
    induction F as [|u i us is (H & _) F IH]; simpl; [tauto|]. intros [->|]; [lia|tauto].
  Qed.

  Lemma sample_single fuel (p : per Obs Act) us : 0 < cap (it_sum p) ->
    length (storage (base p)) = 1 -> sample_proportional fuel p us = Fuel.
  Proof.
    intros Hc Hl. unfold sample_proportional. rewrite Hl.
    change (Z.of_nat 1 - 1)%Z with (Z.of_nat 0).
    pose proof (reduce_empty Qplus (it_sum p) fuel 0 Hc) as H.
    change (Z.of_nat 0) with 0%Z in *. now rewrite H.
  Qed.

  (** C07 *)
  Section W.
    Variable pneg : Q -> Q.
    Hypothesis pneg_pos : forall x, (0 < x)%Q -> (0 < pneg x)%Q.
    Hypothesis pneg_anti : forall x y, (0 < x)%Q -> (x <= y)%Q -> (pneg y <= pneg x)%Q.

    Lemma omap_getitem k (t : tree Q) a : good Qplus k t a -> forall is,
      (forall i, In i is -> i < 2 ^ k) -> omap (getitem t) is = Done (map a is).
    Proof.
      intros G. induction is as [|i r IH]; intros H; auto.
      cbn [omap]. rewrite (good_getitem _ _ _ _ i G) by (apply H; now left). cbn [obind].
      rewrite IH by (intros; apply H; now right). reflexivity.
    Qed.

    Lemma weights_spec (size : nat) (h : list (@pcall Obs Act)) fuel p0 p beta is :
      1 <= size -> 2 * size <= fuel -> contract size 0 h ->
      new_per size = Some p0 -> pexecs pw fuel p0 h = Done p ->
      let prio := array_after (fun _ => 0%Q) (prio_writes pw size 0 1 h) in
      let len := length (storage (base p)) in
      1 <= len -> (0 < beta)%Q -> (forall i, In i is -> i < len) ->
      exists ws, weights fuel pneg beta p is = Done ws /\
        Forall2 (fun i w => (0 < w <= 1)%Q /\
          ((forall j, j < len -> (prio i <= prio j)%Q) -> (w == 1)%Q)) is ws.
    Proof.
      intros Hs Hf Hc E0 E prio len Hl Hb His.
      destruct (per_reach pw pw_pos size h fuel Hs Hf Hc)
        as (p0' & p' & k & E0' & E' & Hk1 & Hk2 & Hkf & Hfi & G1 & G2 & Hm & Hin & Hout).
      assert (p0' = p0) by congruence. subst p0'. assert (p' = p) by congruence. subst p'.
      fold prio in G1, Hin, Hout.
      assert (Elen : len = Nat.min (length (flat_map pgiven h)) size) by (apply Hfi).
      rewrite <- Elen in *.
      assert (Hnn : forall i, (0 <= prio i)%Q).
      { intros j. destruct (Nat.lt_ge_cases j len) as [L|L].
        - destruct (Hin j L). lra.
        - destruct (Hout j L) as [-> _]. lra. }
      unfold weights. rewrite (proj2 (Qltb_lt 0 beta) Hb).
      rewrite (reduce_None_spec ext_min ext_min_assoc k fuel _ _ G2) by lia. cbn [obind].
      rewrite (reduce_None_spec Qplus Qplus_assoc_leibniz k fuel _ _ G1) by lia. cbn [obind].
      set (arrm := array_after (fun _ => PInf) (finw (prio_writes pw size 0 1 h))) in *.
      destruct (min_reduce_spec arrm (2 ^ k - 1) 0) as [(jm & Hjm & Ejm) Hmin].
      rewrite Ejm in *.
      assert (Hjl : jm < len).
      { destruct (Nat.lt_ge_cases jm len); auto. exfalso.
        destruct (Hout jm H) as [_ HH]. specialize (Hmin 0 ltac:(lia)).
        destruct (Hin 0 ltac:(lia)) as [_ H0]. rewrite HH, H0 in Hmin. discriminate. }
      destruct (Hin jm Hjl) as [Hpj Ej]. rewrite Ej in *.
      set (tot := right_reduce Qplus prio 0 (2 ^ k - 1)).
      assert (Htot : (0 < tot)%Q).
      { unfold tot. rewrite right_reduce_prefix. simpl Nat.add. simpl prefix_sum at 2.
        pose proof (prefix_sum_pos prio (S (2 ^ k - 1)) ltac:(lia) Hnn ltac:(apply Hin; lia)). lra. }
      rewrite (omap_getitem k _ _ G1) by (intros i Hi; specialize (His i Hi); lia).
      cbn [obind]. fold len. eexists. split; [reflexivity|].
      set (n := inject_Z (Z.of_nat len)).
      assert (Hn : (0 < n)%Q).
      { unfold n. change 0%Q with (inject_Z 0). rewrite <- Zlt_Qlt. lia. }
      assert (Hsc : forall x y, (x <= y)%Q -> (x / tot * n <= y / tot * n)%Q).
      { intros x y Hxy. apply Qmult_le_compat_r; [|lra].
        unfold Qdiv. apply Qmult_le_compat_r; auto. apply Qlt_le_weak, Qinv_lt_0_compat, Htot. }
      assert (Hpos : forall x, (0 < x)%Q -> (0 < x / tot * n)%Q).
      { intros x Hx. apply Qmult_lt_0_compat; auto. unfold Qdiv.
        apply Qmult_lt_0_compat; auto. now apply Qinv_lt_0_compat. }
      assert (Hmw : (0 < pneg (prio jm / tot * n))%Q) by auto.
      assert (Hle : forall j, j < len -> (prio jm <= prio j)%Q).
      { intros j Hj. specialize (Hmin j ltac:(lia)). destruct (Hin j Hj) as [_ Ej2].
        rewrite Ej2 in Hmin. now apply ext_le_Fin in Hmin. }
      clear - Hsc Hpos Hmw Hle His Hin Hjl Hpj pneg_pos pneg_anti.
      induction is as [|i r IH]; simpl; constructor.
      - assert (Hi : i < len) by (apply His; now left).
        destruct (Hin i Hi) as [Hpi _].
        assert (H1 : (pneg (prio i / tot * n) <= pneg (prio jm / tot * n))%Q).
        { apply pneg_anti; auto. }
        assert (H2 : (0 < pneg (prio i / tot * n))%Q) by auto.
        split; [split|].
        + unfold Qdiv at 1. apply Qmult_lt_0_compat; auto. now apply Qinv_lt_0_compat.
        + apply Qle_shift_div_r; auto. lra.
        + intros Hmi.
          assert (H3 : (pneg (prio jm / tot * n) <= pneg (prio i / tot * n))%Q).
          { apply pneg_anti; auto. }
          assert (H4 : (pneg (prio jm / tot * n) == pneg (prio i / tot * n))%Q) by lra.
          rewrite H4. field. lra.
      - apply IH. intros; apply His; now right.
    Qed.

    (** The whole [sample] call. *)
    Lemma per_sample_spec (size : nat) (h : list (@pcall Obs Act)) fuel p0 p beta us :
      1 <= size -> 2 * size <= fuel -> contract size 0 h ->
      new_per size = Some p0 -> pexecs pw fuel p0 h = Done p ->
      let prio := array_after (fun _ => 0%Q) (prio_writes pw size 0 1 h) in
      let len := length (storage (base p)) in
      2 <= len -> (0 < beta)%Q -> us <> [] -> (forall u, In u us -> (0 <= u < 1)%Q) ->
      exists os acts rs os' ds ws is,
        per_sample fuel pneg beta p us = Done (os, acts, rs, os', ds, ws, is) /\
        Forall2 (fun i row => nth_error (storage (base p)) i = Some row) is (zip5 os acts rs os' ds) /\
        length is = length us /\ (forall i, In i is -> i < len - 1) /\
        Forall2 (fun i w => (0 < w <= 1)%Q /\
          ((forall j, j < len -> (prio i <= prio j)%Q) -> (w == 1)%Q)) is ws.
    Proof.
      intros Hs Hf Hc E0 E prio len Hl Hb Hne Hus.
      destruct (sample_prop size h fuel p0 p us Hs Hf Hc E0 E Hl Hne Hus) as (is & Ei & F).
      fold prio len in F.
      assert (Hlt : forall i, In i is -> i < len - 1).
      { clear - F. induction F; simpl; [tauto|]. intros i [<-|]; auto. tauto. }
      destruct (weights_spec size h fuel p0 p beta is Hs Hf Hc E0 E ltac:(fold len; lia) Hb) as (ws & Ew & Fw).
      { intros i Hi. specialize (Hlt i Hi). fold len. lia. }
      destruct (gather_total (storage (base p)) is) as (ds & Eg).
      { intros i Hi. specialize (Hlt i Hi). fold len. lia. }
      unfold per_sample. rewrite (proj2 (Qltb_lt 0 beta) Hb), Ei. cbn [obind]. rewrite Ew. cbn [obind].
      unfold encode_sample. rewrite Eg.
      do 7 eexists. split; [reflexivity|]. rewrite zip5_unzip.
      split; [now apply gather_spec|]. split; [symmetry; eapply Forall2_length; eauto|].
      split; auto.
    Qed.
  End W.
End Facts.
