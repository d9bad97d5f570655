From Coq Require Import List Arith ZArith QArith Bool Lia Lqa.
From Verif Require Import Base BaseFacts SegTree_Model SegTree_Spec.
Import ListNotations.
Open Scope nat_scope.

Lemma unique_In l x : In x (unique l) <-> In x l.
Proof.
  induction l as [|a l IH]; [tauto|].
  destruct l as [|b l]; [tauto|].
  change (unique (a :: b :: l)) with
    (if Nat.eqb b a then unique (b :: l) else a :: unique (b :: l)).
  destruct (Nat.eqb_spec b a).
  - subst b. rewrite IH. simpl. tauto.
  - simpl in IH |- *. tauto.
Qed.

Lemma unique_const c l : l <> [] -> (forall x, In x l -> x = c) -> unique l = [c].
Proof.
  induction l as [|a l IH]; [congruence|]. intros _ H.
  destruct l as [|b l].
  - simpl. f_equal. apply H. now left.
  - change (unique (a :: b :: l)) with
      (if Nat.eqb b a then unique (b :: l) else a :: unique (b :: l)).
    assert (a = c) by (apply H; now left).
    assert (b = c) by (apply H; right; now left). subst.
    rewrite Nat.eqb_refl. apply IH; [congruence|]. intros. apply H. now right.
Qed.

Lemma unique_nil l : unique l = [] -> l = [].
Proof.
  induction l as [|a l IH]; auto. destruct l as [|b l]; [discriminate|].
  change (unique (a :: b :: l)) with
    (if Nat.eqb b a then unique (b :: l) else a :: unique (b :: l)).
  destruct (Nat.eqb b a); [|discriminate]. intros H. specialize (IH H). discriminate.
Qed.

Section Tree.
  Context {V : Type}.
  Variable op : V -> V -> V.

  Lemma write_many_notin (ivs : list (nat * V)) : forall v j,
    ~ In j (map fst ivs) -> write_many v ivs j = v j.
  Proof.
    induction ivs as [|[i x] r IH]; simpl; intros v j H; auto.
    unfold write_many in *. simpl. rewrite IH by tauto.
    unfold upd. destruct (Nat.eqb_spec j i); auto. subst; tauto.
  Qed.

  Lemma write_many_fun (f : nat -> V) idxs : forall v i,
    In i idxs -> write_many v (map (fun i => (i, f i)) idxs) i = f i.
  Proof.
    induction idxs as [|a r IH]; simpl; [tauto|]. intros v i H.
    unfold write_many in *. simpl.
    destruct (in_dec Nat.eq_dec i r) as [Hr|Hr]; [now apply IH|].
    destruct H as [->|H]; [|tauto].
    fold (write_many (upd v i (f i)) (map (fun i0 => (i0, f i0)) r)).
    rewrite write_many_notin.
    - unfold upd. now rewrite Nat.eqb_refl.
    - rewrite map_map. simpl. rewrite map_id. auto.
  Qed.

  Definition node_inv (v : nat -> V) (c : nat) : Prop :=
    forall n, 1 <= n < c -> v n = op (v (2 * n)) (v (2 * n + 1)).

  Lemma up_loop_spec c : forall d fuel v idxs,
    idxs <> [] ->
    (d = 0 -> length idxs = 1) ->
    (forall i, In i idxs -> 2 ^ d <= i < 2 ^ (d + 1)) ->
    2 ^ (d + 1) <= c ->
    d < fuel ->
    (forall n, 1 <= n < c -> v n = op (v (2 * n)) (v (2 * n + 1)) \/
                             exists i k, In i idxs /\ n = i / 2 ^ k) ->
    exists v', up_loop op fuel v idxs = Done v' /\ node_inv v' c /\
               (forall j, c <= j -> v' j = v j).
  Proof.
    induction d as [|d IH]; intros fuel v idxs Hne H0 Hr Hc Hf Hbr;
      (destruct fuel as [|fuel]; [lia|]).
    - destruct idxs as [|i [|? ?]]; try congruence; [|specialize (H0 eq_refl); discriminate].
      assert (i = 1) as ->. { specialize (Hr i (or_introl eq_refl)). simpl in Hr. lia. }
      assert (Hz : forall f w, up_loop op f w [0] = Done w) by (intros [|f] w; reflexivity).
      exists (upd v 1 (op (v 2) (v 3))).
      split; [cbn [up_loop length hd Nat.ltb Nat.leb orb]; apply Hz|]. split.
      + intros n Hn. simpl in Hc. unfold upd.
        destruct (Nat.eqb_spec n 1) as [->|Hn1].
        * reflexivity.
        * destruct (Nat.eqb_spec (2*n) 1); [lia|]. destruct (Nat.eqb_spec (2*n+1) 1); [lia|].
          destruct (Hbr n Hn) as [E|(i & k & [<-|[]] & E)]; auto.
          destruct k.
          { simpl in E. lia. }
          { rewrite Nat.div_small in E; [lia|]. apply Nat.pow_gt_1; lia. }
      + intros j Hj. simpl in Hc. unfold upd. destruct (Nat.eqb_spec j 1); auto. lia.
    - assert (Hcond : (1 <? length idxs) || (0 <? hd 0 idxs) = true).
      { destruct idxs as [|i r]; [congruence|]. simpl.
        specialize (Hr i (or_introl eq_refl)). apply orb_true_iff. right.
        apply Nat.ltb_lt. assert (0 < 2 ^ S d) by (apply Nat.neq_0_lt_0, Nat.pow_nonzero; lia). lia. }
      cbn [up_loop]. rewrite Hcond.
      set (f := fun i => op (v (2 * i)) (v (2 * i + 1))).
      change (map (fun i => (i, op (v (2 * i)) (v (2 * i + 1)))) idxs) with (map (fun i => (i, f i)) idxs).
      set (v1 := write_many v (map (fun i => (i, f i)) idxs)).
      assert (Hv1in : forall i, In i idxs -> v1 i = f i) by (intros; unfold v1; now apply write_many_fun).
      assert (Hv1out : forall j, ~ In j idxs -> v1 j = v j).
      { intros j Hj. unfold v1. apply write_many_notin. rewrite map_map. simpl. now rewrite map_id. }
      assert (Hpow : 2 ^ (S d + 1) = 2 * 2 ^ (S d)) by (rewrite Nat.add_1_r; reflexivity).
      assert (Hpow' : 2 ^ (S d) = 2 * 2 ^ d) by reflexivity.
      assert (Hpow'' : 2 ^ (d + 1) = 2 * 2 ^ d) by (rewrite Nat.add_1_r; reflexivity).
      assert (Hpos : 0 < 2 ^ d) by (apply Nat.neq_0_lt_0, Nat.pow_nonzero; lia).
      destruct (IH fuel v1 (unique (map (fun i => i / 2) idxs))) as (v' & E & Hinv & Hleaf).
      + intro E. apply unique_nil in E. destruct idxs; [congruence|discriminate].
      + intros ->. rewrite (unique_const 1); [reflexivity| |].
        * destruct idxs; [congruence|discriminate].
        * intros x Hx. apply in_map_iff in Hx. destruct Hx as (i & <- & Hi).
          specialize (Hr i Hi). simpl in Hr.
          assert (2 <= i < 4) by lia. 
          assert (i = 2 \/ i = 3) as [->| ->] by lia; reflexivity.
      + intros x Hx. apply (unique_In (map (fun i => i / 2) idxs)) in Hx.
        apply in_map_iff in Hx. destruct Hx as (i & <- & Hi).
        specialize (Hr i Hi).
        split; [apply Nat.div_le_lower_bound; lia|apply Nat.div_lt_upper_bound; lia].
      + lia.
      + lia.
      + intros n Hn.
        destruct (in_dec Nat.eq_dec n idxs) as [Hin|Hout].
        * left. rewrite (Hv1in n Hin). unfold f.
          pose proof (Hr n Hin).
          rewrite !Hv1out; auto.
          { intro H2. specialize (Hr _ H2). lia. }
          { intro H2. specialize (Hr _ H2). lia. }
        * destruct (in_dec Nat.eq_dec (2 * n) idxs) as [Ha|Ha];
          [|destruct (in_dec Nat.eq_dec (2 * n + 1) idxs) as [Hb|Hb]].
          { right. exists n, 0. split; [|now rewrite Nat.pow_0_r, Nat.div_1_r].
            apply unique_In, in_map_iff. exists (2*n). split; auto.
            rewrite Nat.mul_comm. now rewrite Nat.div_mul. }
          { right. exists n, 0. split; [|now rewrite Nat.pow_0_r, Nat.div_1_r].
            apply unique_In, in_map_iff. exists (2*n+1). split; auto.
            rewrite Nat.add_comm, Nat.mul_comm, Nat.div_add; auto. }
          { destruct (Hbr n Hn) as [E|(i & k & Hi & E)].
            - left. rewrite !Hv1out; auto.
            - right. destruct k.
              + rewrite Nat.pow_0_r, Nat.div_1_r in E. subst. tauto.
              + exists (i / 2), k. split.
                * apply unique_In, in_map_iff. eauto.
                * rewrite E. simpl Nat.pow. rewrite Nat.div_div; auto.
                  apply Nat.pow_nonzero; lia. }
      + exists v'. split; [exact E|]. split; [exact Hinv|].
        intros j Hj. rewrite Hleaf by auto. apply Hv1out.
        intro H2. specialize (Hr _ H2). lia.
  Qed.

  (** Leaves after a (multi-)write. *)
  Lemma write_many_shift (ivs : list (nat * V)) c : forall v a,
    (forall i, v (c + i) = a i) ->
    forall i, write_many v (map (fun iv => (fst iv + c, snd iv)) ivs) (c + i) =
              array_after a ivs i.
  Proof.
    induction ivs as [|[j x] r IH]; simpl; intros v a H i; auto.
    unfold write_many, array_after in *. simpl. apply IH.
    intros i'. unfold upd. simpl.
    destruct (Nat.eqb_spec (c + i') (j + c)); destruct (Nat.eqb_spec i' j); auto; lia.
  Qed.

  Definition good (k : nat) (t : tree V) (a : nat -> V) : Prop :=
    cap t = 2 ^ k /\ node_inv (val t) (cap t) /\
    forall i, val t (cap t + i) = a i.

  Lemma setitems_spec k fuel t a ivs :
    good k t a -> ivs <> [] -> (forall iv, In iv ivs -> fst iv < 2 ^ k) ->
    k < fuel ->
    exists t', setitems op fuel t ivs = Done t' /\ good k t' (array_after a ivs).
  Proof.
    intros (Hc & Hn & Hl) Hne Hlt Hf. unfold setitems.
    destruct ivs as [|iv0 ivr] eqn:Eivs; [congruence|]. rewrite <- Eivs in *.
    assert (Hall : forallb (fun iv => fst iv <? cap t) ivs = true).
    { apply forallb_forall. intros iv Hiv. apply Nat.ltb_lt. rewrite Hc. auto. }
    rewrite Hall.
    set (leafs := map (fun iv => (fst iv + cap t, snd iv)) ivs).
    set (v1 := write_many (val t) leafs).
    assert (Hleaf1 : forall i, v1 (cap t + i) = array_after a ivs i).
    { intro i. unfold v1, leafs. now apply write_many_shift. }
    assert (Hout : forall j, j < cap t -> v1 j = val t j).
    { intros j Hj. unfold v1. apply write_many_notin. unfold leafs.
      rewrite map_map. simpl. intro H. apply in_map_iff in H. destruct H as (x & E & _). lia. }
    assert (Hpos : 0 < 2 ^ k) by (apply Nat.neq_0_lt_0, Nat.pow_nonzero; lia).
    destruct k as [|k].
    - assert (E : unique (map (fun iv => fst iv / 2) leafs) = [0]).
      { apply unique_const.
        - unfold leafs. rewrite Eivs. discriminate.
        - intros x Hx. apply in_map_iff in Hx. destruct Hx as (y & <- & Hy).
          unfold leafs in Hy. apply in_map_iff in Hy. destruct Hy as (z & <- & Hz).
          simpl fst. specialize (Hlt _ Hz). simpl in Hlt, Hc.
          replace (fst z + cap t) with 1 by lia. reflexivity. }
      rewrite E. exists (mkTree (cap t) v1). split.
      + destruct fuel; reflexivity.
      + split; [auto|]. split; [|exact Hleaf1].
        intros n Hn1. simpl in Hn1, Hc. lia.
    - destruct (up_loop_spec (cap t) k fuel v1 (unique (map (fun iv => fst iv / 2) leafs)))
        as (v' & E & Hinv & Hsame).
      + intro E. apply unique_nil in E. unfold leafs in E. rewrite Eivs in E. discriminate.
      + intros ->. rewrite (unique_const 1); [reflexivity| |].
        * unfold leafs. rewrite Eivs. discriminate.
        * intros x Hx. apply in_map_iff in Hx. destruct Hx as (y & <- & Hy).
          unfold leafs in Hy. apply in_map_iff in Hy. destruct Hy as (z & <- & Hz).
          simpl fst. specialize (Hlt _ Hz). simpl in Hlt, Hc. rewrite Hc.
          assert (fst z = 0 \/ fst z = 1) as [-> | ->] by lia; reflexivity.
      + intros x Hx. apply (unique_In (map (fun iv => fst iv / 2) leafs)) in Hx.
        apply in_map_iff in Hx. destruct Hx as (y & <- & Hy).
        unfold leafs in Hy. apply in_map_iff in Hy. destruct Hy as (z & <- & Hz).
        simpl fst. specialize (Hlt _ Hz). rewrite Hc. 
        assert (2 ^ S k = 2 * 2 ^ k) by reflexivity.
        rewrite Nat.add_1_r. 
        split; [apply Nat.div_le_lower_bound; lia|apply Nat.div_lt_upper_bound; lia].
      + rewrite Nat.add_1_r. lia.
      + lia.
      + intros n Hn1.
        destruct (in_dec Nat.eq_dec n (map (fun iv => fst iv / 2) leafs)) as [Hin|Hnin].
        * right. exists n, 0. split; [now apply unique_In|now rewrite Nat.pow_0_r, Nat.div_1_r].
        * left.
          assert (Hsame : forall j, (j = 2 * n \/ j = 2 * n + 1) -> v1 j = val t j).
          { intros j Hj. unfold v1. apply write_many_notin. intro H.
            apply Hnin. apply in_map_iff in H. destruct H as (y & E & Hy).
            apply in_map_iff. exists y. split; auto. rewrite E.
            destruct Hj as [-> | ->].
            - rewrite Nat.mul_comm. now rewrite Nat.div_mul.
            - rewrite Nat.add_comm, Nat.mul_comm, Nat.div_add; auto. }
          rewrite (Hsame (2 * n)), (Hsame (2 * n + 1)) by auto. rewrite Hout by lia. apply Hn; lia.
      + exists (mkTree (cap t) v'). split.
        * rewrite E. reflexivity.
        * split; [auto|]. split; [exact Hinv|].
          intro i. simpl. rewrite Hsame by lia. apply Hleaf1.
  Qed.

  Lemma array_after_app (a : nat -> V) w1 w2 :
    array_after a (w1 ++ w2) = array_after (array_after a w1) w2.
  Proof. unfold array_after. apply fold_left_app. Qed.

  Lemma run_writes_spec k fuel h : forall t a,
    good k t a ->
    (forall w, In w h -> w <> [] /\ forall iv, In iv w -> fst iv < 2 ^ k) ->
    k < fuel ->
    exists t', run_writes op fuel t h = Done t' /\ good k t' (array_after a (concat h)).
  Proof.
    induction h as [|w r IH]; simpl; intros t a Hg Hw Hf.
    - exists t. split; auto.
    - destruct (Hw w (or_introl eq_refl)) as [Hne Hlt].
      destruct (setitems_spec k fuel t a w Hg Hne Hlt Hf) as (t1 & E & Hg1).
      rewrite E. simpl.
      destruct (IH t1 (array_after a w) Hg1) as (t2 & E2 & Hg2); auto.
      exists t2. split; auto. now rewrite array_after_app.
  Qed.

  Lemma new_tree_pow2 (e : V) c : new_tree e c <> None -> exists k, c = 2 ^ k.
  Proof.
    unfold new_tree. destruct (0 <? c) eqn:E0; simpl; [|congruence].
    apply Nat.ltb_lt in E0.
    destruct (Nat.land c (c - 1) =? 0) eqn:E; [|congruence]. intros _.
    apply Nat.eqb_eq in E.
    exists (Nat.log2 c).
    destruct (Nat.log2_spec c E0) as [H1 H2].
    destruct (Nat.eq_dec c (2 ^ Nat.log2 c)) as [|Hne]; auto. exfalso.
    (* both c and c-1 have the top bit *)
    assert (Hb1 : Nat.testbit c (Nat.log2 c) = true) by (apply Nat.bit_log2; lia).
    assert (Hl : Nat.log2 (c - 1) = Nat.log2 c).
    { apply Nat.log2_unique; [lia|]. split; lia. }
    assert (Hb2 : Nat.testbit (c - 1) (Nat.log2 c) = true).
    { rewrite <- Hl. apply Nat.bit_log2.
      assert (2 ^ Nat.log2 c > 0) by (apply Nat.neq_0_lt_0, Nat.pow_nonzero; lia). lia. }
    assert (Hb : Nat.testbit (Nat.land c (c - 1)) (Nat.log2 c) = true).
    { rewrite Nat.land_spec. now rewrite Hb1, Hb2. }
    rewrite E in Hb. rewrite Nat.bits_0 in Hb. discriminate.
  Qed.

  Lemma new_tree_Some (e : V) c t : new_tree e c = Some t ->
    t = mkTree c (fun _ => e).
  Proof. unfold new_tree. destruct (_ && _); congruence. Qed.

  Lemma pow2_new_tree (e : V) k : new_tree e (2 ^ k) = Some (mkTree (2 ^ k) (fun _ => e)).
  Proof.
    unfold new_tree.
    assert (Hpos : 0 < 2 ^ k) by (apply Nat.neq_0_lt_0, Nat.pow_nonzero; lia).
    rewrite (proj2 (Nat.ltb_lt _ _) Hpos). simpl.
    replace (Nat.land (2 ^ k) (2 ^ k - 1)) with 0; [reflexivity|].
    symmetry. replace (2 ^ k - 1) with (Nat.ones k).
    - rewrite Nat.land_ones. apply Nat.mod_same. lia.
    - rewrite Nat.ones_equiv. lia.
  Qed.

  Lemma new_tree_good (e : V) k (Hee : op e e = e) :
    good k (mkTree (2 ^ k) (fun _ => e)) (fun _ => e).
  Proof.
    split; [reflexivity|]. split; simpl; auto.
    intros n _. auto.
  Qed.

  (** Node values are reductions of the leaves below. *)
  Hypothesis op_assoc : forall a b c, op a (op b c) = op (op a b) c.

  Lemma right_reduce_app (a : nat -> V) : forall n i m,
    op (right_reduce op a i n) (right_reduce op a (i + S n) m) =
    right_reduce op a i (n + S m).
  Proof.
    induction n as [|n IH]; intros i m; simpl.
    - now rewrite Nat.add_1_r.
    - rewrite <- op_assoc. f_equal.
      replace (i + S (S n)) with (S i + S n) by lia. apply IH.
  Qed.

  Lemma right_reduce_ext (a b : nat -> V) : forall n i,
    (forall j, i <= j <= i + n -> a j = b j) ->
    right_reduce op a i n = right_reduce op b i n.
  Proof.
    induction n as [|n IH]; intros i H; simpl.
    - apply H; lia.
    - rewrite H by lia. f_equal. apply IH. intros. apply H. lia.
  Qed.

  Lemma node_value k t a : good k t a -> forall h node,
    h <= k -> 2 ^ (k - h) <= node < 2 * 2 ^ (k - h) ->
    val t node = right_reduce op a (node * 2 ^ h - 2 ^ k) (2 ^ h - 1).
  Proof.
    intros (Hc & Hn & Hl). induction h as [|h IH]; intros node Hh Hr.
    - rewrite Nat.sub_0_r in Hr. simpl. rewrite Nat.mul_1_r.
      rewrite <- Hl. f_equal. lia.
    - assert (Hk : 2 ^ k = 2 ^ (k - S h) * 2 ^ (S h)).
      { rewrite <- Nat.pow_add_r. f_equal. lia. }
      assert (Hs : 2 ^ (k - h) = 2 * 2 ^ (k - S h)).
      { replace (k - h) with (S (k - S h)) by lia. reflexivity. }
      assert (Hp : 0 < 2 ^ h) by (apply Nat.neq_0_lt_0, Nat.pow_nonzero; lia).
      assert (Hq : 0 < 2 ^ (k - S h)) by (apply Nat.neq_0_lt_0, Nat.pow_nonzero; lia).
      assert (Hsh : 2 ^ S h = 2 * 2 ^ h) by reflexivity.
      rewrite Hn.
      2:{ rewrite Hc, Hk, Hsh. nia. }
      rewrite (IH (2 * node)) by lia. rewrite (IH (2 * node + 1)) by lia.
      replace ((2 * node + 1) * 2 ^ h - 2 ^ k)
        with ((2 * node * 2 ^ h - 2 ^ k) + S (2 ^ h - 1)).
      2:{ rewrite Hk, Hsh. nia. }
      rewrite right_reduce_app. f_equal; [|lia].
      rewrite Hsh. f_equal. lia.
  Qed.

  Lemma reduce_helper_spec k t a : good k t a -> forall h fuel node i j,
    h <= k -> h < fuel ->
    2 ^ (k - h) <= node < 2 * 2 ^ (k - h) ->
    node * 2 ^ h - 2 ^ k <= i -> i <= j -> j <= node * 2 ^ h - 2 ^ k + 2 ^ h - 1 ->
    reduce_helper op fuel t (Z.of_nat i) (Z.of_nat j) (Z.of_nat node)
       (Z.of_nat (node * 2 ^ h - 2 ^ k)) (Z.of_nat (node * 2 ^ h - 2 ^ k + 2 ^ h - 1))
    = Done (right_reduce op a i (j - i)).
  Proof.
    intros Hg. pose proof Hg as (Hc & Hn & Hl).
    assert (Hnode : forall h node, h <= k -> 2 ^ (k - h) <= node < 2 * 2 ^ (k - h) ->
               node < 2 * cap t).
    { intros h node Hh Hr. rewrite Hc.
      assert (2 ^ (k - h) <= 2 ^ k) by (apply Nat.pow_le_mono_r; lia). lia. }
    induction h as [|h IH]; intros fuel node i j Hh Hf Hr Hi Hij Hj;
      (destruct fuel as [|fuel]; [lia|]); cbn [reduce_helper].
    - change (2 ^ 0) with 1 in *. rewrite Nat.mul_1_r in *.
      rewrite Nat.sub_0_r in Hr.
      assert (i = node - 2 ^ k) by lia. assert (j = node - 2 ^ k) by lia. subst i j.
      replace (node - 2 ^ k + 1 - 1) with (node - 2 ^ k) by lia.
      rewrite !Z.eqb_refl. simpl andb. cbv iota.
      assert (Hr0 : 2 ^ (k - 0) <= node < 2 * 2 ^ (k - 0)) by (now rewrite Nat.sub_0_r).
      pose proof (Hnode 0 node Hh Hr0).
      destruct (Z.ltb_spec (Z.of_nat node) (2 * Z.of_nat (cap t))); [|lia].
      rewrite Nat2Z.id.
      rewrite (node_value k t a Hg 0 node Hh Hr0). simpl. rewrite Nat.mul_1_r, Nat.sub_diag. reflexivity.
    - assert (Hk : 2 ^ k = 2 ^ (k - S h) * 2 ^ (S h)).
      { rewrite <- Nat.pow_add_r. f_equal. lia. }
      assert (Hs : 2 ^ (k - h) = 2 * 2 ^ (k - S h)).
      { replace (k - h) with (S (k - S h)) by lia. reflexivity. }
      assert (Hp : 0 < 2 ^ h) by (apply Nat.neq_0_lt_0, Nat.pow_nonzero; lia).
      assert (Hq : 0 < 2 ^ (k - S h)) by (apply Nat.neq_0_lt_0, Nat.pow_nonzero; lia).
      assert (Hsh : 2 ^ S h = 2 * 2 ^ h) by reflexivity.
      set (ns := node * 2 ^ S h - 2 ^ k) in *.
      assert (Hle : 2 ^ k <= node * 2 ^ S h) by (rewrite Hk; apply Nat.mul_le_mono_r; lia).
      assert (Ens0 : (2 * node) * 2 ^ h - 2 ^ k = ns) by (unfold ns; rewrite Hsh; f_equal; lia).
      assert (Ens1 : (2 * node + 1) * 2 ^ h - 2 ^ k = ns + 2 ^ h) by (unfold ns; rewrite Hsh in *; nia).
      destruct ((Z.of_nat i =? Z.of_nat ns)%Z && (Z.of_nat j =? Z.of_nat (ns + 2 ^ S h - 1))%Z) eqn:Eq.
      + apply andb_true_iff in Eq. destruct Eq as [E1 E2].
        apply Z.eqb_eq in E1, E2. apply Nat2Z.inj in E1, E2. subst i j.
        pose proof (Hnode (S h) node Hh Hr).
        destruct (Z.ltb_spec (Z.of_nat node) (2 * Z.of_nat (cap t))); [|lia].
        rewrite Nat2Z.id.
        rewrite (node_value k t a Hg (S h) node Hh Hr). fold ns. f_equal. f_equal. lia.
      + assert (Emid : ((Z.of_nat ns + Z.of_nat (ns + 2 ^ S h - 1)) / 2)%Z = Z.of_nat (ns + 2 ^ h - 1)).
        { symmetry. apply Z.div_unique with (r := 1%Z); [lia|]. rewrite Hsh. lia. }
        rewrite Emid.
        assert (El : (2 * Z.of_nat node)%Z = Z.of_nat (2 * node)) by lia.
        assert (Er : (2 * Z.of_nat node + 1)%Z = Z.of_nat (2 * node + 1)) by lia.
        assert (Em : (Z.of_nat (ns + 2 ^ h - 1) + 1)%Z = Z.of_nat (ns + 2 ^ h)) by lia.
        destruct (Z.leb_spec (Z.of_nat j) (Z.of_nat (ns + 2 ^ h - 1))) as [L|L].
        * rewrite El. rewrite <- Ens0. apply IH; try lia.
        * rewrite Em.
          destruct (Z.leb_spec (Z.of_nat (ns + 2 ^ h)) (Z.of_nat i)) as [L2|L2].
          { rewrite Er, <- Ens1.
            replace (ns + 2 ^ S h - 1) with ((2 * node + 1) * 2 ^ h - 2 ^ k + 2 ^ h - 1) by lia.
            apply IH; lia. }
          { rewrite Er, El.
            replace (reduce_helper op fuel t (Z.of_nat i) (Z.of_nat (ns + 2 ^ h - 1)) (Z.of_nat (2 * node))
                        (Z.of_nat ns) (Z.of_nat (ns + 2 ^ h - 1)))
              with (Done (right_reduce op a i (ns + 2 ^ h - 1 - i))).
            2:{ symmetry. rewrite <- Ens0. apply IH; lia. }
            cbn [obind].
            replace (reduce_helper op fuel t (Z.of_nat (ns + 2 ^ h)) (Z.of_nat j) (Z.of_nat (2 * node + 1))
                        (Z.of_nat (ns + 2 ^ h)) (Z.of_nat (ns + 2 ^ S h - 1)))
              with (Done (right_reduce op a (ns + 2 ^ h) (j - (ns + 2 ^ h)))).
            2:{ symmetry. 
                replace (Z.of_nat (ns + 2 ^ S h - 1)) with
                  (Z.of_nat ((2 * node + 1) * 2 ^ h - 2 ^ k + 2 ^ h - 1)) by lia.
                replace (reduce_helper op fuel t (Z.of_nat (ns + 2 ^ h)) (Z.of_nat j) (Z.of_nat (2 * node + 1))
                        (Z.of_nat (ns + 2 ^ h)))
                  with (reduce_helper op fuel t (Z.of_nat (ns + 2 ^ h)) (Z.of_nat j) (Z.of_nat (2 * node + 1))
                        (Z.of_nat ((2 * node + 1) * 2 ^ h - 2 ^ k))) by (now rewrite Ens1).
                apply IH; lia. }
            cbn [obind]. f_equal.
            pose proof (right_reduce_app a (ns + 2 ^ h - 1 - i) i (j - (ns + 2 ^ h))) as Happ.
            replace (i + S (ns + 2 ^ h - 1 - i)) with (ns + 2 ^ h) in Happ by lia.
            rewrite Happ. f_equal. lia. }
  Qed.

  Lemma reduce_spec k fuel t a i j : good k t a -> k < fuel -> i < j <= 2 ^ k ->
    reduce op fuel t (Z.of_nat i) (Some (Z.of_nat j)) = Done (right_reduce op a i (j - i - 1)).
  Proof.
    intros Hg Hf Hij. unfold reduce. pose proof Hg as (Hc & _).
    destruct (Z.ltb_spec (Z.of_nat j) 0); [lia|].
    replace (Z.of_nat j - 1)%Z with (Z.of_nat (j - 1)) by lia.
    assert (Hp : 0 < 2 ^ k) by (apply Nat.neq_0_lt_0, Nat.pow_nonzero; lia).
    pose proof (reduce_helper_spec k t a Hg k fuel 1 i (j - 1)) as H1.
    rewrite Nat.sub_diag in H1. simpl Nat.pow in H1.
    rewrite Nat.mul_1_l, Nat.sub_diag in H1.
    rewrite Hc. replace (Z.of_nat (2 ^ k) - 1)%Z with (Z.of_nat (0 + 2 ^ k - 1)) by lia.
    change 1%Z with (Z.of_nat 1) at 1. change 0%Z with (Z.of_nat 0).
    rewrite H1; try lia. f_equal. f_equal. lia.
  Qed.

  Lemma reduce_None_spec k fuel t a : good k t a -> k < fuel ->
    reduce op fuel t 0 None = Done (right_reduce op a 0 (2 ^ k - 1)).
  Proof.
    intros Hg Hf. pose proof Hg as (Hc & _).
    assert (Hp : 0 < 2 ^ k) by (apply Nat.neq_0_lt_0, Nat.pow_nonzero; lia).
    pose proof (reduce_spec k fuel t a 0 (2 ^ k) Hg Hf) as H.
    unfold reduce in *. rewrite Hc in *.
    change (Z.of_nat 0) with 0%Z in H. rewrite H by lia. f_equal. f_equal. lia.
  Qed.
End Tree.

(** An empty range never returns. *)
Lemma reduce_helper_empty {V} (op : V -> V -> V) (t : tree V) : forall fuel i node ns ne,
  (ns <= ne)%Z ->
  reduce_helper op fuel t i (i - 1)%Z node ns ne = Fuel.
Proof.
  induction fuel as [|f IH]; intros i node ns ne Hle; [reflexivity|].
  simpl.
  destruct ((i =? ns)%Z && (i - 1 =? ne)%Z) eqn:E.
  { apply andb_true_iff in E. destruct E as [E1 E2].
    apply Z.eqb_eq in E1, E2. lia. }
  set (mid := ((ns + ne) / 2)%Z).
  assert (ns <= mid)%Z by (unfold mid; apply Z.div_le_lower_bound; lia).
  assert (mid <= ne)%Z by (unfold mid; apply Z.div_le_upper_bound; lia).
  destruct (Z.leb_spec (i - 1) mid).
  - apply IH; lia.
  - destruct (Z.leb_spec (mid + 1) i); [|lia].
    destruct (Z.eq_dec mid ne) as [Em|].
    + (* leaf with the range to the right of it *)
      clear IH. clearbody mid. subst mid.
      assert (G : forall f node, reduce_helper op f t i (i - 1)%Z node (ne + 1)%Z ne = Fuel).
      { clear - H1. induction f as [|f IH]; intros node; [reflexivity|]. simpl.
        destruct ((i =? ne + 1)%Z && (i - 1 =? ne)%Z) eqn:E.
        { apply andb_true_iff in E. destruct E as [E1 E2]. apply Z.eqb_eq in E1, E2. lia. }
        replace ((ne + 1 + ne) / 2)%Z with ne.
        2:{ apply Z.div_unique with (r := 1%Z); lia. }
        destruct (Z.leb_spec (i - 1) ne); [lia|].
        destruct (Z.leb_spec (ne + 1) i); [|lia]. apply IH. }
      apply G.
    + apply IH. lia.
Qed.

Lemma reduce_empty {V} (op : V -> V -> V) (t : tree V) fuel i :
  0 < cap t -> reduce op fuel t (Z.of_nat i) (Some (Z.of_nat i)) = Fuel.
Proof.
  intros Hc. unfold reduce. destruct (Z.ltb_spec (Z.of_nat i) 0); [lia|].
  apply reduce_helper_empty. lia.
Qed.

(** ** Prefix sums *)
Lemma right_reduce_prefix (a : nat -> Q) : forall n i,
  (right_reduce Qplus a i n == prefix_sum a (i + S n) - prefix_sum a i)%Q.
Proof.
  induction n as [|n IH]; intros i; simpl.
  - rewrite Nat.add_1_r. simpl. lra.
  - rewrite IH. replace (i + S (S n)) with (S i + S n) by lia. simpl. lra.
Qed.

Lemma Qplus_assoc_leibniz a b c : (a + (b + c) = a + b + c)%Q.
Proof.
  unfold Qplus. destruct a as [an ad], b as [bn bd], c as [cn cd]. simpl.
  f_equal.
  - rewrite !Pos2Z.inj_mul. ring.
  - apply Pos.mul_assoc.
Qed.

(** Outcome of the scalar descent. *)
Definition found (a : nat -> Q) (n : nat) (p : Q) (i : nat) : Prop :=
  i < n /\ (prefix_sum a i <= p)%Q /\ (i = n - 1 \/ (p < prefix_sum a (S i))%Q).

Lemma prefix_sum_mono a : (forall i, (0 <= a i)%Q) -> forall i j, i <= j ->
  (prefix_sum a i <= prefix_sum a j)%Q.
Proof.
  intros H i j L. induction L; [lra|]. simpl. specialize (H m). lra.
Qed.

Section Descent.
  Variables (k : nat) (t : sum_tree) (a : nat -> Q).
  Hypothesis Hg : good Qplus k t a.

  (* A query entry at depth d: node idx covers leaves [lo, lo + 2^(k-d)),
     remaining mass is p - prefix lo *)
  Definition at_depth (d : nat) (p0 : Q) (q : nat * Q * bool) : Prop :=
    let '(idx, p, cont) := q in
    2 ^ d <= idx < 2 * 2 ^ d /\
    cont = (d <? k) /\
    let lo := idx * 2 ^ (k - d) - 2 ^ k in
    (p == p0 - prefix_sum a lo)%Q /\ (prefix_sum a lo <= p0)%Q /\
    (lo + 2 ^ (k - d) = 2 ^ k \/ (p0 < prefix_sum a (lo + 2 ^ (k - d)))%Q).

  Lemma prefix_step_spec d p0 q : d < k -> at_depth d p0 q ->
    exists q', prefix_step t q = Done q' /\ at_depth (S d) p0 q'.
  Proof.
    destruct q as [[idx p] cont]. intros Hd (Hr & Hcont & Hp & Hlo & Hhi).
    pose proof Hg as (Hc & _ & _).
    rewrite (proj2 (Nat.ltb_lt _ _) Hd) in Hcont. subst cont.
    unfold prefix_step.
    assert (Hk : 2 ^ k = 2 ^ d * 2 ^ (k - d)).
    { rewrite <- Nat.pow_add_r. f_equal. lia. }
    assert (Hs : 2 ^ (k - d) = 2 * 2 ^ (k - S d)).
    { replace (k - d) with (S (k - S d)) by lia. reflexivity. }
    assert (Hpos : 0 < 2 ^ (k - S d)) by (apply Nat.neq_0_lt_0, Nat.pow_nonzero; lia).
    assert (Hpd : 0 < 2 ^ d) by (apply Nat.neq_0_lt_0, Nat.pow_nonzero; lia).
    assert (Hsd : 2 ^ S d = 2 * 2 ^ d) by reflexivity.
    assert (Hdk : 2 ^ S d <= 2 ^ k) by (apply Nat.pow_le_mono_r; lia).
    destruct (Nat.ltb_spec (2 * idx) (2 * cap t)) as [_|Hbad].
    2:{ rewrite Hc in Hbad. lia. }
    set (lo := idx * 2 ^ (k - d) - 2 ^ k) in *.
    assert (Elo : (2 * idx) * 2 ^ (k - S d) - 2 ^ k = lo) by (unfold lo; rewrite Hs; f_equal; lia).
    assert (Elo1 : (2 * idx + 1) * 2 ^ (k - S d) - 2 ^ k = lo + 2 ^ (k - S d)).
    { unfold lo. rewrite Hk, Hs. nia. }
    assert (Hv : (val t (2 * idx) == prefix_sum a (lo + 2 ^ (k - S d)) - prefix_sum a lo)%Q).
    { rewrite (node_value Qplus Qplus_assoc_leibniz k t a Hg (k - S d) (2 * idx)).
      - rewrite right_reduce_prefix. rewrite Elo.
        replace (lo + S (2 ^ (k - S d) - 1)) with (lo + 2 ^ (k - S d)) by lia. reflexivity.
      - lia.
      - replace (k - (k - S d)) with (S d) by lia. rewrite Hsd. lia. }
    set (x := val t (2 * idx)) in *.
    destruct (Qle_bool x p) eqn:E.
    - apply Qle_bool_iff in E.
      assert (E2 : Qltb p x = false).
      { destruct (Qltb p x) eqn:E2; auto. apply Qltb_lt in E2. lra. }
      rewrite E2. simpl orb. cbv iota. eexists. split; [reflexivity|].
      unfold at_depth. split; [rewrite Hsd; lia|]. split.
      { rewrite Hc. apply eq_true_iff_eq. rewrite !Nat.ltb_lt.
        rewrite Hsd in *. split; intro.
        - destruct (Nat.eq_dec (S d) k); [|lia]. subst k. lia.
        - assert (2 ^ S (S d) <= 2 ^ k) by (apply Nat.pow_le_mono_r; lia).
          change (2 ^ S (S d)) with (2 * (2 * 2 ^ d)) in *. lia. }
      rewrite Elo1. split; [lra|]. split; [lra|].
      destruct Hhi as [Hhi|Hhi]; [left; lia|right].
      replace (lo + 2 ^ (k - S d) + 2 ^ (k - S d)) with (lo + 2 ^ (k - d)) by lia. exact Hhi.
    - apply Qle_bool_false in E.
      assert (E2 : Qltb p x = true) by now apply Qltb_lt.
      rewrite E2. simpl orb. cbv iota. eexists. split; [reflexivity|].
      unfold at_depth. split; [rewrite Hsd; lia|]. split.
      { rewrite Hc. apply eq_true_iff_eq. rewrite !Nat.ltb_lt.
        rewrite Hsd in *. split; intro.
        - destruct (Nat.eq_dec (S d) k); [|lia]. subst k. lia.
        - assert (2 ^ S (S d) <= 2 ^ k) by (apply Nat.pow_le_mono_r; lia).
          change (2 ^ S (S d)) with (2 * (2 * 2 ^ d)) in *. lia. }
      rewrite Elo. split; [exact Hp|]. split; [exact Hlo|]. right. lra.
  Qed.

  Lemma prefix_loop_spec : forall n d fuel ps qs,
    d + n = k -> n < fuel -> ps <> [] ->
    Forall2 (at_depth d) ps qs ->
    exists qs', prefix_loop fuel t qs = Done qs' /\ Forall2 (at_depth k) ps qs'.
  Proof.
    induction n as [|n IH]; intros d fuel ps qs Hd Hf Hne H.
    - assert (d = k) by lia. subst d. exists qs. split; auto.
      assert (E : existsb (fun q : nat * Q * bool => snd q) qs = false).
      { clear Hne Hf. induction H; auto. simpl. rewrite IHForall2.
        destruct y as [[i p] c]. destruct H as (_ & -> & _). simpl.
        now rewrite Nat.ltb_irrefl. }
      destruct fuel; simpl; now rewrite E.
    - destruct fuel as [|fuel]; [lia|]. simpl.
      assert (E : existsb (fun q : nat * Q * bool => snd q) qs = true).
      { destruct H as [|p q ps qs Hq H]; [congruence|]. simpl.
        destruct q as [[i p'] c]. destruct Hq as (_ & -> & _). simpl.
        rewrite (proj2 (Nat.ltb_lt d k)); [reflexivity|lia]. }
      rewrite E.
      assert (Hm : exists qs1, omap (prefix_step t) qs = Done qs1 /\ Forall2 (at_depth (S d)) ps qs1).
      { clear E Hne. induction H as [|p q ps qs Hq H IHq].
        - exists []. split; constructor.
        - destruct IHq as (qs1 & E1 & F1).
          destruct (prefix_step_spec d p q) as (q' & E2 & F2); [lia|auto|].
          exists (q' :: qs1). simpl. rewrite E2. simpl. rewrite E1. simpl.
          split; [reflexivity|]. now constructor. }
      destruct Hm as (qs1 & E1 & F1). rewrite E1. simpl.
      apply (IH (S d)); auto; lia.
  Qed.

  Lemma find_prefixsum_spec fuel ps : 1 <= k -> k < fuel -> ps <> [] ->
    (forall p, In p ps -> (0 <= p)%Q /\ (p <= prefix_sum a (2 ^ k) + (1 # 100000))%Q) ->
    exists is, find_prefixsum_idx fuel t ps = Done is /\
               Forall2 (fun p i => found a (2 ^ k) p i) ps is.
  Proof.
    intros Hk1 Hf Hne Hps. unfold find_prefixsum_idx.
    destruct ps as [|p0 pr] eqn:Eps; [congruence|]. rewrite <- Eps in *.
    rewrite (reduce_None_spec Qplus Qplus_assoc_leibniz k fuel t a Hg Hf). cbn [obind].
    assert (Hp2 : 0 < 2 ^ k) by (apply Nat.neq_0_lt_0, Nat.pow_nonzero; lia).
    match goal with |- context [if ?b then _ else _] => replace b with true end.
    2:{ symmetry. apply forallb_forall. intros p Hp. destruct (Hps p Hp) as [H1 H2].
        apply andb_true_iff. split; apply Qle_bool_iff; auto.
        rewrite right_reduce_prefix. simpl Nat.add.
        replace (S (2 ^ k - 1)) with (2 ^ k) by lia. simpl prefix_sum at 2. lra. }
    destruct (prefix_loop_spec k 0 fuel ps (map (fun p => (1, p, true)) ps)) as (qs & E & F).
    - reflexivity.
    - lia.
    - auto.
    - clear Eps Hne. induction ps as [|p ps IHp]; simpl; constructor.
      + unfold at_depth. simpl Nat.pow. split; [lia|]. split.
        { symmetry. apply Nat.ltb_lt. lia. }
        rewrite Nat.sub_0_r, Nat.mul_1_l, Nat.sub_diag. simpl.
        split; [lra|]. destruct (Hps p (or_introl eq_refl)). split; [lra|]. now left.
      + apply IHp. intros. apply Hps. now right.
    - rewrite E. simpl. eexists. split; [reflexivity|].
      pose proof Hg as (Hc & _).
      clear - F Hc Hp2. induction F as [|p q ps qs Hq F IHF]; simpl; constructor; auto.
      destruct q as [[i p'] c]. destruct Hq as (Hr & _ & Hp & Hlo & Hhi).
      rewrite Nat.sub_diag in *. simpl Nat.pow in *. rewrite Nat.mul_1_r in *.
      simpl. rewrite Hc. unfold found. split; [lia|]. split; [exact Hlo|].
      destruct Hhi as [Hhi|Hhi]; [left; lia|right].
      now rewrite Nat.add_1_r in Hhi.
  Qed.
End Descent.

Lemma find_prefixsum_cap1 fuel t p ps : cap t = 1 ->
  find_prefixsum_idx fuel t (p :: ps) <> Fuel -> find_prefixsum_idx fuel t (p :: ps) = Raise.
Proof.
  intros Hc. unfold find_prefixsum_idx.
  destruct (reduce Qplus fuel t 0 None) as [x| |] eqn:E; simpl; try congruence.
  destruct (_ && _); auto. destruct fuel as [|f]; simpl; [congruence|].
  rewrite Hc. reflexivity.
Qed.
