(** Property-level lemmas about the segment tree. *)
From Coq Require Import List Arith ZArith QArith Bool Lia Lqa.
From Verif Require Import Base BaseFacts SegTree_Model SegTree_Spec SegTree_Proofs.
Import ListNotations.
Open Scope nat_scope.

Lemma ext_min_assoc a b c : ext_min a (ext_min b c) = ext_min (ext_min a b) c.
Proof.
  unfold ext_min, ext_leb.
  destruct a as [a|], b as [b|], c as [c|]; simpl; auto;
    repeat match goal with
           | |- context [Qle_bool ?x ?y] => destruct (Qle_bool x y) eqn:?; simpl
           end; auto; try congruence;
    repeat match goal with
           | H : Qle_bool _ _ = true |- _ => apply Qle_bool_iff in H
           | H : Qle_bool _ _ = false |- _ => apply Qle_bool_false in H
           end; exfalso; lra.
Qed.

Lemma lt_pow2 k : k < 2 ^ k.
Proof. apply Nat.pow_gt_lin_r. lia. Qed.

Lemma new_tree_inv {V} (e : V) c t0 : new_tree e c = Some t0 ->
  exists k, c = 2 ^ k /\ t0 = mkTree (2 ^ k) (fun _ => e).
Proof.
  intros H. destruct (new_tree_pow2 e c) as [k ->]; [congruence|].
  exists k. split; auto. now rewrite pow2_new_tree in H; injection H.
Qed.

Lemma tree_refines_array {V} (op : V -> V -> V) (e : V) :
  (forall a b c, op a (op b c) = op (op a b) c) -> op e e = e ->
  forall c t0 h fuel,
  new_tree e c = Some t0 -> c <= fuel -> valid_history c h ->
  exists t, run_writes op fuel t0 h = Done t /\
    let arr := array_after (fun _ => e) (concat h) in
    (forall i, i < c -> getitem t i = Done (arr i)) /\
    (forall i, c <= i -> getitem t i = Raise) /\
    (forall a b, a < b <= c ->
       reduce op fuel t (Z.of_nat a) (Some (Z.of_nat b)) =
       Done (right_reduce op arr a (b - a - 1))) /\
    (forall a m, 1 <= m -> a < c - m ->
       reduce op fuel t (Z.of_nat a) (Some (- Z.of_nat m)%Z) =
       Done (right_reduce op arr a (c - m - a - 1))) /\
    (forall a, a < c -> 
       reduce op fuel t (Z.of_nat a) None = Done (right_reduce op arr a (c - a - 1))).
Proof.
  intros Hassoc Hee c t0 h fuel Hn Hf Hv.
  destruct (new_tree_inv e c t0 Hn) as (k & -> & ->).
  pose proof (lt_pow2 k) as Hk.
  destruct (run_writes_spec op k fuel h (mkTree (2 ^ k) (fun _ => e)) (fun _ => e))
    as (t & E & Hg); auto; [now apply new_tree_good|lia|].
  exists t. split; [exact E|]. set (arr := array_after _ _) in *. cbv zeta.
  pose proof Hg as (Hc & _ & Hl).
  repeat apply conj.
  - intros i Hi. unfold getitem. rewrite Hc, (proj2 (Nat.ltb_lt _ _) Hi).
    now rewrite <- Hl, Hc.
  - intros i Hi. unfold getitem. rewrite Hc.
    now rewrite (proj2 (Nat.ltb_ge _ _) Hi).
  - intros a b Hab. apply reduce_spec with (k := k); auto. lia.
  - intros a m Hm Ha.
    assert (Ha' : a < 2 ^ k - m <= 2 ^ k) by lia.
    pose proof (reduce_spec op Hassoc k fuel t arr a (2 ^ k - m) Hg) as Hr.
    rewrite <- Hr; try lia. unfold reduce. rewrite Hc.
    destruct (Z.ltb_spec (- Z.of_nat m) 0); [|lia].
    destruct (Z.ltb_spec (Z.of_nat (2 ^ k - m)) 0); [lia|].
    f_equal. lia.
  - intros a Ha.
    pose proof (reduce_spec op Hassoc k fuel t arr a (2 ^ k) Hg) as Hr.
    rewrite <- Hr; try lia. unfold reduce. rewrite Hc.
    destruct (Z.ltb_spec (Z.of_nat (2 ^ k)) 0); [lia|reflexivity].
Qed.

Lemma array_after_forall {V} (P : V -> Prop) (ws : list (nat * V)) : forall a,
  (forall i, P (a i)) -> (forall w, In w ws -> P (snd w)) ->
  forall i, P (array_after a ws i).
Proof.
  induction ws as [|w r IH]; simpl; intros a Ha Hw i; auto.
  unfold array_after in *. simpl. apply IH; auto.
  intros j. destruct (Nat.eqb j (fst w)); auto.
Qed.

Lemma found_unique a : (forall i, (0 <= a i)%Q) -> forall p i j,
  (prefix_sum a i <= p)%Q -> (p < prefix_sum a (S i))%Q ->
  (prefix_sum a j <= p)%Q -> (p < prefix_sum a (S j))%Q -> i = j.
Proof.
  intros Ha p i j H1 H2 H3 H4.
  destruct (Nat.lt_trichotomy i j) as [L|[E|L]]; auto; exfalso.
  - pose proof (prefix_sum_mono a Ha (S i) j L). lra.
  - pose proof (prefix_sum_mono a Ha (S j) i L). lra.
Qed.

Lemma prefix_search : forall c t0 h fuel t ps,
  new_sum_tree c = Some t0 -> 2 <= c -> c <= fuel -> valid_history c h ->
  (forall w, In w (concat h) -> (0 <= snd w)%Q) ->
  run_writes Qplus fuel t0 h = Done t ->
  let arr := array_after (fun _ => 0%Q) (concat h) in
  ps <> [] ->
  (forall p, In p ps -> (0 <= p)%Q /\ (p <= prefix_sum arr c + (1 # 100000))%Q) ->
  exists is, find_prefixsum_idx fuel t ps = Done is /\
    Forall2 (fun p i =>
      i < c /\ (prefix_sum arr i <= p)%Q /\
      ((p < prefix_sum arr c)%Q ->
         (p < prefix_sum arr (S i))%Q /\ (0 < arr i)%Q /\
         forall j, j < c -> (prefix_sum arr j <= p)%Q -> (p < prefix_sum arr (S j))%Q -> j = i) /\
      ((prefix_sum arr c <= p)%Q -> i = c - 1)) ps is.
Proof.
  intros c t0 h fuel t ps Hn Hc2 Hf Hv Hpos Hrun arr Hne Hps.
  destruct (new_tree_inv _ c t0 Hn) as (k & -> & ->).
  pose proof (lt_pow2 k) as Hk.
  assert (Hk1 : 1 <= k) by (destruct k; simpl in Hc2; lia).
  destruct (run_writes_spec Qplus k fuel h (mkTree (2 ^ k) (fun _ => 0%Q)) (fun _ => 0%Q))
    as (t' & E & Hg); auto; [now apply new_tree_good|lia|].
  assert (t' = t) by congruence. subst t'. fold arr in Hg.
  assert (Ha : forall i, (0 <= arr i)%Q).
  { apply array_after_forall; auto. intros; lra. }
  destruct (find_prefixsum_spec k t arr Hg fuel ps) as (is & E2 & F); auto; [lia|].
  exists is. split; auto.
  eapply Forall2_impl; [|exact F].
  intros p i (Hi & Hlo & Hhi). split; [exact Hi|]. split; [exact Hlo|]. split.
  - intros Hlt.
    assert (Hhi' : (p < prefix_sum arr (S i))%Q).
    { destruct Hhi as [-> |]; auto. replace (S (2 ^ k - 1)) with (2 ^ k) by lia. auto. }
    split; [auto|]. split; [simpl in Hhi'; lra|].
    intros j Hj H1 H2. eapply found_unique; eauto.
  - intros Hge. destruct Hhi as [|Hhi]; auto. exfalso.
    pose proof (prefix_sum_mono arr Ha (S i) (2 ^ k) ltac:(lia)). lra.
Qed.

Lemma prefix_search_assert : forall c t0 h fuel t ps p,
  new_sum_tree c = Some t0 -> c <= fuel -> valid_history c h ->
  run_writes Qplus fuel t0 h = Done t ->
  let arr := array_after (fun _ => 0%Q) (concat h) in
  In p ps -> ((p < 0)%Q \/ (prefix_sum arr c + (1 # 100000) < p)%Q) ->
  find_prefixsum_idx fuel t ps = Raise.
Proof.
  intros c t0 h fuel t ps p Hn Hf Hv Hrun arr Hin Hp.
  destruct (new_tree_inv _ c t0 Hn) as (k & -> & ->).
  pose proof (lt_pow2 k) as Hk.
  destruct (run_writes_spec Qplus k fuel h (mkTree (2 ^ k) (fun _ => 0%Q)) (fun _ => 0%Q))
    as (t' & E & Hg); auto; [now apply new_tree_good|lia|].
  assert (t' = t) by congruence. subst t'. fold arr in Hg.
  unfold find_prefixsum_idx. destruct ps as [|p0 pr] eqn:Eps; [destruct Hin|]. rewrite <- Eps in *.
  rewrite (reduce_None_spec Qplus Qplus_assoc_leibniz k fuel t arr Hg) by lia. cbn [obind].
  match goal with |- context [if ?b then _ else _] => replace b with false; [reflexivity|] end.
  symmetry. apply not_true_iff_false. intro H. rewrite forallb_forall in H.
  specialize (H p Hin). apply andb_true_iff in H. destruct H as [H1 H2].
  apply Qle_bool_iff in H1, H2. rewrite right_reduce_prefix in H2.
  simpl Nat.add in H2. replace (S (2 ^ k - 1)) with (2 ^ k) in H2 by lia.
  simpl prefix_sum at 2 in H2. destruct Hp; lra.
Qed.

Lemma sum_reduce_prefix (arr : nat -> Q) a b : a < b ->
  (right_reduce Qplus arr a (b - a - 1) == prefix_sum arr b - prefix_sum arr a)%Q.
Proof.
  intros H. rewrite right_reduce_prefix. replace (a + S (b - a - 1)) with b by lia. reflexivity.
Qed.

Lemma min_reduce_spec (arr : nat -> ext) : forall n a,
  (exists i, a <= i <= a + n /\ right_reduce ext_min arr a n = arr i) /\
  (forall i, a <= i <= a + n -> ext_le (right_reduce ext_min arr a n) (arr i)).
Proof.
  assert (Hrefl : forall x, ext_leb x x = true).
  { intros [q|]; simpl; auto. apply Qle_bool_iff. lra. }
  assert (Htot : forall x y, ext_leb x y = false -> ext_leb y x = true).
  { intros [x|] [y|]; simpl; auto; try congruence. intro H. apply Qle_bool_false in H.
    apply Qle_bool_iff. lra. }
  assert (Htr : forall x y z, ext_leb x y = true -> ext_leb y z = true -> ext_leb x z = true).
  { intros [x|] [y|] [z|]; simpl; auto; try congruence. rewrite !Qle_bool_iff. intros; lra. }
  induction n as [|n IH]; intros a; simpl.
  - split; [exists a; split; auto; lia|]. intros i Hi. replace i with a by lia. apply Hrefl.
  - destruct (IH (S a)) as [(i & Hi & Ei) Hmin]. unfold ext_min at 1 3.
    destruct (ext_leb (arr a) (right_reduce ext_min arr (S a) n)) eqn:E.
    + split; [exists a; split; auto; lia|].
      intros j Hj. destruct (Nat.eq_dec j a) as [->|]; [apply Hrefl|].
      eapply Htr; [exact E|]. apply Hmin. lia.
    + split; [exists i; split; auto; lia|].
      intros j Hj. destruct (Nat.eq_dec j a) as [->|]; [now apply Htot|].
      apply Hmin. lia.
Qed.

Lemma range_any {V} (op : V -> V -> V) (e : V) (Ha : forall a b c, op a (op b c) = op (op a b) c) (He : op e e = e) c t0 h fuel t a stop b :
  new_tree e c = Some t0 -> c <= fuel -> valid_history c h -> run_writes op fuel t0 h = Done t ->
  range_end c stop = Z.of_nat b -> a < b <= c ->
  reduce op fuel t (Z.of_nat a) stop = Done (right_reduce op (array_after (fun _ => e) (concat h)) a (b - a - 1)).
Proof.
  intros Hn Hf Hv Hr He' Hab. destruct (tree_refines_array op e Ha He c t0 h fuel Hn Hf Hv) as (t' & Ht & H). 
  rewrite Hr in Ht. inversion Ht; subst t'. cbv zeta in H. destruct H as (_ & _ & H1 & H2 & H3).
  destruct stop as [z|]; simpl in He'.
  - destruct (z <? 0)%Z eqn:E.
    + apply Z.ltb_lt in E. set (k := Z.to_nat (- z)). replace z with (- Z.of_nat k)%Z by lia.
      rewrite H2 by lia. do 2 f_equal. lia.
    + subst z. apply H1. lia.
  - assert (b = c) by lia. subst b. apply H3. lia.
Qed.
Lemma sum_range c t0 h fuel t a stop b :
  new_sum_tree c = Some t0 -> c <= fuel -> valid_history c h -> run_writes Qplus fuel t0 h = Done t ->
  range_end c stop = Z.of_nat b -> a < b <= c ->
  exists v, reduce Qplus fuel t (Z.of_nat a) stop = Done v /\
    let arr := array_after (fun _ => 0%Q) (concat h) in (v == prefix_sum arr b - prefix_sum arr a)%Q.
Proof.
  intros. eexists. split; [eapply range_any; eauto; [apply Qplus_assoc_leibniz|reflexivity]|].
  cbv zeta. apply sum_reduce_prefix. lia.
Qed.
Lemma min_range c t0 h fuel t a stop b :
  new_min_tree c = Some t0 -> c <= fuel -> valid_history c h -> run_writes ext_min fuel t0 h = Done t ->
  range_end c stop = Z.of_nat b -> a < b <= c ->
  exists v, reduce ext_min fuel t (Z.of_nat a) stop = Done v /\
    let arr := array_after (fun _ => PInf) (concat h) in
    (exists i, a <= i < b /\ v = arr i) /\ (forall i, a <= i < b -> ext_le v (arr i)).
Proof.
  intros. eexists. split; [eapply range_any; eauto; [apply ext_min_assoc|reflexivity]|].
  cbv zeta. destruct (min_reduce_spec (array_after (fun _ => PInf) (concat h)) (b - a - 1) a) as ((i & I1 & I2) & J).
  split; [exists i; split; auto; lia|]. intros j Hj. apply J. lia.
Qed.
