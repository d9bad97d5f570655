(** The moves of the annealing agent. *)
Require Import List ZArith Arith Lia Bool Reals Lra.
Require Import Verif.SR_Model Verif.SR_Spec Verif.SR_Proofs.
Import ListNotations.

(** ** Ranges. *)
Lemma limits_inv : forall c l, init_limits c = Done l ->
  exists lb ub, c_lb c = Some lb /\ c_ub c = Some ub /\ l = mkLimits lb (map (fun u => (u + 1)%Z) ub).
Proof.
  intros c l H. unfold init_limits in H. destruct (c_lb c) as [lb|], (c_ub c) as [ub|]; try discriminate.
  injection H as <-. eauto.
Qed.

Lemma one_range_iff : forall lb ub,
  one_range (mkLimits lb (map (fun u => (u + 1)%Z) ub)) = true <-> (length lb = 1 /\ length ub = 1).
Proof.
  intros lb ub. unfold one_range. cbn. rewrite map_length, andb_true_iff, !Nat.eqb_eq. tauto.
Qed.

Lemma range_iff : forall c l i a b, init_limits c = Done l ->
  (range_of l i = Some (a, b) <-> bounds_at c i a (b - 1)).
Proof.
  intros c l i a b H. apply limits_inv in H. destruct H as (lb & ub & H1 & H2 & ->).
  unfold range_of, bounds_at. cbn [l_lb l_ub].
  destruct (one_range (mkLimits lb (map (fun u => (u + 1)%Z) ub))) eqn:E.
  - apply one_range_iff in E. destruct E as [E1 E2].
    destruct lb as [|x [|? ?]]; try discriminate. destruct ub as [|y [|? ?]]; try discriminate. cbn.
    split.
    + intros A. injection A as <- <-. exists [x], [y]. repeat split; auto. left. split; [reflexivity|].
      f_equal. lia.
    + intros (lb' & ub' & A1 & A2 & A3). rewrite H1 in A1. rewrite H2 in A2. injection A1 as <-. injection A2 as <-.
      destruct A3 as [(A3 & A4)|(A3 & _)]; [|exfalso; apply A3; auto].
      injection A3 as ->. injection A4 as ->. f_equal. f_equal. lia.
  - assert (En : ~ (length lb = 1 /\ length ub = 1)).
    { intros A. apply one_range_iff in A. congruence. }
    rewrite nth_error_map. split.
    + intros A. destruct (nth_error lb i) as [x|] eqn:X; [|discriminate].
      destruct (nth_error ub i) as [y|] eqn:Y; [|discriminate]. cbn in A. injection A as <- <-.
      exists lb, ub. repeat split; auto. right. split; [exact En|]. split; [exact X|]. rewrite Y. f_equal. lia.
    + intros (lb' & ub' & A1 & A2 & A3). rewrite H1 in A1. rewrite H2 in A2. injection A1 as <-. injection A2 as <-.
      destruct A3 as [(A3 & A4)|(_ & A3 & A4)].
      * subst. exfalso. apply En. auto.
      * rewrite A3, A4. cbn. f_equal. f_equal. lia.
Qed.

Lemma randint_some : forall lo hi raw v, randint lo hi raw = Some v ->
  (lo <= v < hi)%Z /\ v = (lo + raw mod (hi - lo))%Z.
Proof.
  intros lo hi raw v H. unfold randint in H. destruct (lo <? hi)%Z eqn:E; [|discriminate].
  apply Z.ltb_lt in E. injection H as <-. pose proof (Z.mod_pos_bound raw (hi - lo)). lia.
Qed.
Lemma randint_ok : forall lo hi raw, (lo < hi)%Z -> randint lo hi raw = Some (lo + raw mod (hi - lo))%Z.
Proof. intros lo hi raw H. unfold randint. apply Z.ltb_lt in H. rewrite H. reflexivity. Qed.

(** ** Single entries. *)
Lemma put_length : forall x i v, length (put x i v) = length x.
Proof. induction x as [|a x IH]; intros [|i] v; cbn; auto. Qed.
Lemma put_same : forall x i v, i < length x -> nth_error (put x i v) i = Some v.
Proof. induction x as [|a x IH]; intros [|i] v H; cbn in *; try lia; [reflexivity|]. apply IH. lia. Qed.
Lemma put_other : forall x i j v, i <> j -> nth_error (put x i v) j = nth_error x j.
Proof.
  induction x as [|a x IH]; intros [|i] [|j] v H; cbn; try reflexivity; [lia|]. apply IH. lia.
Qed.

Lemma pick2_some : forall n a b i j, pick2 n a b = Some (i, j) -> i < n /\ j < n /\ i <> j.
Proof.
  intros n a b i j H. unfold pick2 in H. destruct (n <? 2) eqn:E; [discriminate|]. apply Nat.ltb_ge in E.
  cbv zeta in H.
  assert (Hi : a mod n < n) by (apply Nat.mod_upper_bound; lia).
  assert (Hj : b mod (n - 1) < n - 1) by (apply Nat.mod_upper_bound; lia).
  destruct (b mod (n - 1) <? a mod n) eqn:E2; injection H as <- <-.
  - apply Nat.ltb_lt in E2. lia.
  - apply Nat.ltb_ge in E2. lia.
Qed.

Lemma resample1_done : forall fuel k r cur raws v, resample1 fuel k r cur raws = Done v ->
  (fst r <= v < snd r)%Z /\ v <> cur.
Proof.
  induction fuel as [|f IH]; intros k r cur raws v H; cbn in H; [discriminate|].
  apply bind_done in H. destruct H as (w & Hw & H). apply lift_done in Hw.
  destruct (cur =? w)%Z eqn:E; [eauto|]. injection H as <-. apply Z.eqb_neq in E.
  apply randint_some in Hw. split; [tauto|congruence].
Qed.
Lemma resample2_done : forall fuel k r1 r2 c1 c2 raws v, resample2 fuel k r1 r2 c1 c2 raws = Done v ->
  (fst r1 <= fst v < snd r1)%Z /\ (fst r2 <= snd v < snd r2)%Z /\ fst v <> c1 /\ snd v <> c2.
Proof.
  induction fuel as [|f IH]; intros k r1 r2 c1 c2 raws v H; cbn in H; [discriminate|].
  apply bind_done in H. destruct H as (w1 & Hw1 & H). apply lift_done in Hw1.
  apply bind_done in H. destruct H as (w2 & Hw2 & H). apply lift_done in Hw2.
  destruct ((c1 =? w1)%Z || (c2 =? w2)%Z)%bool eqn:E; [eauto|]. injection H as <-.
  apply orb_false_iff in E. destruct E as [E1 E2]. apply Z.eqb_neq in E1. apply Z.eqb_neq in E2.
  apply randint_some in Hw1. apply randint_some in Hw2. cbn. repeat split; try tauto; congruence.
Qed.

Lemma differ_put : forall x i v cur, nth_error x i = Some cur -> v <> cur -> differ_at [i] x (put x i v).
Proof.
  intros x i v cur Hc Hv. split; [apply put_length|]. intros j Hj. cbn. split.
  - intros [<-|[]]. rewrite put_same by exact Hj. congruence.
  - intros H. destruct (Nat.eq_dec i j) as [E|E]; [auto|]. exfalso. apply H. apply put_other. exact E.
Qed.

Lemma single_done : forall fuel n l x d y, singleswap fuel n l x d = Done y ->
  exists i v r, i < n /\ i < length x /\ range_of l i = Some r /\ (fst r <= v < snd r)%Z /\
    y = put x i v /\ differ_at [i] x y.
Proof.
  intros fuel n l x d y H. unfold singleswap in H.
  apply bind_done in H. destruct H as ([i j] & Hp & H). apply lift_done in Hp. cbn [fst snd] in H.
  apply bind_done in H. destruct H as (r & Hr & H). apply lift_done in Hr.
  apply bind_done in H. destruct H as (cur & Hc & H). apply lift_done in Hc.
  apply bind_done in H. destruct H as (v & Hv & H). injection H as <-.
  apply pick2_some in Hp. apply resample1_done in Hv. exists i, v, r.
  assert (i < length x) by (apply nth_error_Some; congruence).
  repeat split; try tauto; try (apply (differ_put x i v cur); tauto).
Qed.

Lemma dual_done : forall fuel n l x d y, dualswap fuel n l x d = Done y ->
  exists i j v w r r', i < n /\ j < n /\ i <> j /\ i < length x /\ j < length x /\
    range_of l i = Some r /\ range_of l j = Some r' /\
    (fst r <= v < snd r)%Z /\ (fst r' <= w < snd r')%Z /\
    y = put (put x i v) j w /\ differ_at [i; j] x y.
Proof.
  intros fuel n l x d y H. unfold dualswap in H.
  apply bind_done in H. destruct H as ([i j] & Hp & H). apply lift_done in Hp. cbn [fst snd] in H.
  apply bind_done in H. destruct H as (r & Hr & H). apply lift_done in Hr.
  apply bind_done in H. destruct H as (r' & Hr' & H). apply lift_done in Hr'.
  apply bind_done in H. destruct H as (c1 & Hc1 & H). apply lift_done in Hc1.
  apply bind_done in H. destruct H as (c2 & Hc2 & H). apply lift_done in Hc2.
  apply bind_done in H. destruct H as ([v w] & Hv & H). injection H as <-. cbn [fst snd] in *.
  apply pick2_some in Hp. apply resample2_done in Hv. cbn [fst snd] in Hv.
  exists i, j, v, w, r, r'.
  assert (Hi : i < length x) by (apply nth_error_Some; congruence).
  assert (Hj : j < length x) by (apply nth_error_Some; congruence).
  repeat split; try tauto.
  - rewrite !put_length. reflexivity.
  - intros Hin. destruct (Nat.eq_dec j i0) as [<-|E].
    + rewrite put_same by (rewrite put_length; lia). rewrite Hc2. intros A. injection A as A. tauto.
    + destruct Hin as [<-|[<-|[]]]; [|contradiction].
      rewrite put_other by exact E. rewrite put_same by exact Hi. rewrite Hc1. intros A. injection A as A. tauto.
  - intros A. cbn. destruct (Nat.eq_dec j i0) as [E|E]; [auto|].
    destruct (Nat.eq_dec i i0) as [E'|E']; [auto|].
    exfalso. apply A. rewrite !put_other by auto. reflexivity.
Qed.

(** ** Points stay in the box. *)
Lemma in_box_put : forall c l x i v r, init_limits c = Done l ->
  in_box c x -> range_of l i = Some r -> (fst r <= v < snd r)%Z -> in_box c (put x i v).
Proof.
  intros c l x i v [a b] Hl Hx Hr Hv j w Hw. cbn [fst snd] in Hv.
  destruct (Nat.eq_dec i j) as [<-|E].
  - rewrite put_same in Hw.
    + injection Hw as <-. apply (range_iff c l i a b Hl) in Hr. exists a, (b - 1)%Z. split; [exact Hr|lia].
    + rewrite <- (put_length x i v). apply nth_error_Some. congruence.
  - rewrite put_other in Hw by exact E. apply (Hx j w Hw).
Qed.

Lemma redraw_spec : forall l p x i d y, redraw l p i x d = Some y ->
  length y = length x /\
  forall k a b, nth_error x k = Some a -> nth_error y k = Some b ->
    ((p <= d_coins d (i + k))%R /\ b = a) \/
    ((d_coins d (i + k) < p)%R /\ exists r, range_of l (i + k) = Some r /\ (fst r <= b < snd r)%Z).
Proof.
  intros l p. induction x as [|a x IH]; intros i d y H; cbn in H.
  - injection H as <-. split; [reflexivity|]. intros [|k] a b Ha; discriminate.
  - destruct (Rlt_dec (d_coins d i) p) as [Hc|Hc].
    + destruct (range_of l i) as [r|] eqn:Er; [|discriminate].
      destruct (randint (fst r) (snd r) (d_ints d i)) as [v|] eqn:Ev; [|discriminate].
      destruct (redraw l p (S i) x d) as [t|] eqn:Et; [|discriminate]. injection H as <-.
      destruct (IH _ _ _ Et) as (L & K). cbn [length]. split; [lia|].
      intros [|k] u w Hu Hw; cbn in Hu, Hw.
      * injection Hw as <-. right. rewrite Nat.add_0_r. split; [exact Hc|]. exists r. split; [exact Er|].
        apply randint_some in Ev. tauto.
      * replace (i + S k) with (S i + k) by lia. eauto.
    + destruct (redraw l p (S i) x d) as [t|] eqn:Et; [|discriminate]. injection H as <-.
      destruct (IH _ _ _ Et) as (L & K). cbn [length]. split; [lia|].
      intros [|k] u w Hu Hw; cbn in Hu, Hw.
      * injection Hw as <-. injection Hu as <-. left. rewrite Nat.add_0_r. split; [lra|reflexivity].
      * replace (i + S k) with (S i + k) by lia. eauto.
Qed.

Lemma redraw_box : forall c l p x d y, init_limits c = Done l -> in_box c x ->
  redraw l p 0 x d = Some y -> in_box c y.
Proof.
  intros c l p x d y Hl Hx H. apply redraw_spec in H. destruct H as (L & K). intros k b Hb.
  destruct (nth_error x k) as [a|] eqn:Ha.
  - destruct (K k a b Ha Hb) as [(_ & ->)|(_ & [u w] & Hr & Hv)]; [eauto|].
    apply (range_iff c l _ u w Hl) in Hr. exists u, (w - 1)%Z. cbn in *. split; [exact Hr|lia].
  - apply nth_error_None in Ha. assert (k < length y) by (apply nth_error_Some; congruence). lia.
Qed.

Lemma randints_spec : forall lo hi k i raws y, randints lo hi k i raws = Some y ->
  length y = k /\ forall j v, nth_error y j = Some v -> (lo <= v < hi)%Z /\ v = (lo + raws (i + j)%nat mod (hi - lo))%Z.
Proof.
  intros lo hi. induction k as [|k IH]; intros i raws y H; cbn in H.
  - injection H as <-. split; [reflexivity|]. intros [|j] v Hv; discriminate.
  - destruct (randint lo hi (raws i)) as [v|] eqn:Ev; [|discriminate].
    destruct (randints lo hi k (S i) raws) as [t|] eqn:Et; [|discriminate]. injection H as <-.
    destruct (IH _ _ _ Et) as (L & K). split; [cbn; lia|]. intros [|j] w Hw; cbn in Hw.
    + injection Hw as <-. apply randint_some in Ev. rewrite Nat.add_0_r. exact Ev.
    + replace (i + S j) with (S i + j) by lia. eauto.
Qed.
Lemma randints_ok : forall lo hi raws, (lo < hi)%Z -> forall k i, exists y, randints lo hi k i raws = Some y.
Proof.
  intros lo hi raws H. induction k as [|k IH]; intros i; cbn; [eauto|].
  rewrite randint_ok by exact H. destruct (IH (S i)) as (t & ->). eauto.
Qed.

Lemma one_range_box : forall c l lo hi, init_limits c = Done l -> one_range l = true ->
  l_lb l = [lo] -> l_ub l = [hi] -> forall i, bounds_at c i lo (hi - 1).
Proof.
  intros c l lo hi Hl H1 H2 H3 i. apply (range_iff c l i lo hi Hl). unfold range_of. rewrite H1, H2, H3. reflexivity.
Qed.

Lemma array_box : forall c l lo hi k raws y, init_limits c = Done l -> one_range l = true ->
  l_lb l = [lo] -> l_ub l = [hi] -> randint_array lo hi k raws = Some y -> length y = k /\ in_box c y.
Proof.
  intros c l lo hi k raws y Hl H1 H2 H3 H. unfold randint_array in H.
  destruct (lo <? hi)%Z eqn:E; [|discriminate]. apply randints_spec in H. destruct H as (L & K).
  split; [exact L|]. intros i v Hv. exists lo, (hi - 1)%Z. split; [eapply one_range_box; eauto|].
  destruct (K i v Hv). lia.
Qed.

Lemma full_box : forall c l p x d y, init_limits c = Done l -> in_box c x ->
  fullswap l p x d = Done y -> length y = length x /\ in_box c y.
Proof.
  intros c l p x d y Hl Hx H. unfold fullswap in H. destruct (one_range l) eqn:E.
  - destruct (l_lb l) as [|lo [|? ?]] eqn:E1; try discriminate.
    destruct (l_ub l) as [|hi [|? ?]] eqn:E2; try discriminate. apply lift_done in H.
    eapply array_box; eauto.
  - apply lift_done in H. split; [eapply redraw_spec; eauto|eapply redraw_box; eauto].
Qed.

Lemma kbs_done : forall c l x inds d x' inds' row, kbs c l x inds d = Done (x', inds', row) ->
  ((d_kcoin d < c_pkbs c)%R /\ exists k, row = Some k /\ In k inds /\ nth_error (c_rows c) k = Some x' /\
     inds' = match remove_first k inds with [] => seq 0 (length (c_rows c)) | _ => remove_first k inds end) \/
  ((c_pkbs c <= d_kcoin d)%R /\ row = None /\ inds' = inds /\ redraw l (c_indpb c) 0 x d = Some x').
Proof.
  intros c l x inds d x' inds' row H. unfold kbs in H. destruct (Rlt_dec (d_kcoin d) (c_pkbs c)) as [Hc|Hc].
  - left. split; [exact Hc|].
    apply bind_done in H. destruct H as (k & Hk & H). apply lift_done in Hk. cbv zeta in H.
    apply bind_done in H. destruct H as (r & Hr & H). apply lift_done in Hr.
    exists k. unfold kbs_row in Hk. apply nth_error_In in Hk. injection H as <- <- <-. auto.
  - right. apply bind_done in H. destruct H as (y & Hy & H). apply lift_done in Hy. injection H as <- <- <-.
    repeat split; auto. lra.
Qed.

(** What a move proposes, for each kind of move. *)
Lemma move_done : forall fuel c l x inds d x' inds' row,
  move fuel c l x inds d = Done (x', inds', row) ->
  match c_swap c with
  | Single => singleswap fuel (c_size c) l x d = Done x' /\ inds' = inds /\ row = None
  | Dual => dualswap fuel (c_size c) l x d = Done x' /\ inds' = inds /\ row = None
  | Quad => quadswap (c_size c) l x = Done x' /\ inds' = inds /\ row = None
  | Full => fullswap l (c_indpb c) x d = Done x' /\ inds' = inds /\ row = None
  | Kbs => kbs c l x inds d = Done (x', inds', row)
  | OtherSwap => False
  end.
Proof.
  intros fuel c l x inds d x' inds' row H. unfold move in H.
  destruct (c_swap c); try discriminate; try exact H;
    apply bind_done in H; destruct H as (y & Hy & H); injection H as <- <- <-; auto.
Qed.

Lemma quad_done : forall n l x y, quadswap n l x = Done y -> 4 <= n /\ one_range l = false /\ y = x.
Proof.
  intros n l x y H. unfold quadswap in H. destruct (n <? 4) eqn:E; [discriminate|].
  apply Nat.ltb_ge in E. destruct (one_range l); [discriminate|]. injection H as <-. auto.
Qed.

Lemma move_box : forall fuel c l x inds d x' inds' row,
  init_limits c = Done l -> (c_swap c = Kbs -> Forall (in_box c) (c_rows c)) ->
  in_box c x -> move fuel c l x inds d = Done (x', inds', row) -> in_box c x'.
Proof.
  intros fuel c l x inds d x' inds' row Hl Hk Hx H. apply move_done in H.
  destruct (c_swap c) eqn:E; try contradiction.
  - destruct H as (H & _). apply single_done in H. destruct H as (i & v & r & _ & _ & Hr & Hv & -> & _).
    eapply in_box_put; eauto.
  - destruct H as (H & _). apply dual_done in H.
    destruct H as (i & j & v & w & r & r' & _ & _ & _ & _ & _ & Hr & Hr' & Hv & Hw & -> & _).
    eapply in_box_put; eauto. eapply in_box_put; eauto.
  - destruct H as (H & _). apply quad_done in H. destruct H as (_ & _ & ->). exact Hx.
  - destruct H as (H & _). eapply full_box; eauto.
  - apply kbs_done in H. destruct H as [(_ & k & _ & _ & Hr & _)|(_ & _ & _ & Hr)].
    + specialize (Hk eq_refl). rewrite Forall_forall in Hk. apply Hk. eapply nth_error_In; eauto.
    + eapply redraw_box; eauto.
Qed.

Lemma move_length : forall fuel c l x inds d x' inds' row,
  init_limits c = Done l -> (c_swap c = Kbs -> Forall (fun r => length r = length x) (c_rows c)) ->
  move fuel c l x inds d = Done (x', inds', row) -> length x' = length x.
Proof.
  intros fuel c l x inds d x' inds' row Hl Hk H. apply move_done in H.
  destruct (c_swap c) eqn:E; try contradiction.
  - destruct H as (H & _). apply single_done in H. destruct H as (i & v & r & _ & _ & Hr & Hv & -> & _).
    apply put_length.
  - destruct H as (H & _). apply dual_done in H.
    destruct H as (i & j & v & w & r & r' & _ & _ & _ & _ & _ & Hr & Hr' & Hv & Hw & -> & _).
    rewrite !put_length. reflexivity.
  - destruct H as (H & _). apply quad_done in H. destruct H as (_ & _ & ->). reflexivity.
  - destruct H as (H & _). unfold fullswap in H. destruct (one_range l) eqn:E1.
    + destruct (l_lb l) as [|lo [|? ?]]; try discriminate. destruct (l_ub l) as [|hi [|? ?]]; try discriminate.
      apply lift_done in H. unfold randint_array in H. destruct (lo <? hi)%Z; [|discriminate].
      apply randints_spec in H. tauto.
    + apply lift_done in H. apply redraw_spec in H. tauto.
  - apply kbs_done in H. destruct H as [(_ & k & _ & _ & Hr & _)|(_ & _ & _ & Hr)].
    + specialize (Hk eq_refl). rewrite Forall_forall in Hk. apply Hk. eapply nth_error_In; eauto.
    + apply redraw_spec in Hr. tauto.
Qed.

(** ** The initial point. *)
Lemma each_spec : forall rs i raws y, randint_each rs i raws = Some y ->
  length y = length rs /\
  forall k v r, nth_error y k = Some v -> nth_error rs k = Some r -> (fst r <= v < snd r)%Z.
Proof.
  induction rs as [|r rs IH]; intros i raws y H; cbn in H.
  - injection H as <-. split; [reflexivity|]. intros [|k] v r Hv; discriminate.
  - destruct (randint (fst r) (snd r) (raws i)) as [v|] eqn:Ev; [|discriminate].
    destruct (randint_each rs (S i) raws) as [t|] eqn:Et; [|discriminate]. injection H as <-.
    destruct (IH _ _ _ Et) as (L & K). cbn. split; [lia|].
    intros [|k] w q Hw Hq; cbn in Hw, Hq.
    + injection Hw as <-. injection Hq as <-. apply randint_some in Ev. tauto.
    + eauto.
Qed.

Lemma nth_combine : forall V W (a : list V) (b : list W) i x y,
  nth_error a i = Some x -> nth_error b i = Some y -> nth_error (combine a b) i = Some (x, y).
Proof.
  induction a as [|p a IH]; intros [|q b] [|i] x y Hx Hy; cbn in *; try discriminate.
  - congruence.
  - apply IH; auto.
Qed.

Lemma init_box : forall c l raws x0, init_limits c = Done l -> good_bounds c -> c_start c = None ->
  init_x c l raws = Done x0 -> length x0 = c_size c /\ in_box c x0.
Proof.
  intros c l raws x0 Hl (lb & ub & H1 & H2 & H3 & H4 & H5) Hs H. unfold init_x in H. rewrite Hs in H.
  pose proof Hl as Hl'. apply limits_inv in Hl'. destruct Hl' as (lb' & ub' & A1 & A2 & ->).
  rewrite H1 in A1. rewrite H2 in A2. injection A1 as <-. injection A2 as <-. cbn [l_lb l_ub] in H.
  destruct (one_range (mkLimits lb (map (fun u => (u + 1)%Z) ub))) eqn:E.
  - destruct lb as [|lo [|? ?]] eqn:E1; try discriminate.
    destruct ub as [|hi [|? ?]] eqn:E2; try discriminate. cbn [map] in H. apply lift_done in H.
    eapply array_box; eauto; reflexivity.
  - assert (Hn : length lb = c_size c).
    { destruct H4 as [H4|H4]; [|exact H4]. exfalso.
      assert (one_range (mkLimits lb (map (fun u => (u + 1)%Z) ub)) = true) by (apply one_range_iff; lia).
      congruence. }
    unfold broadcast in H. rewrite map_length, H3, Nat.eqb_refl in H. apply lift_done in H.
    apply each_spec in H. rewrite combine_length, map_length, H3, Nat.min_id in H. destruct H as (L & K).
    split; [lia|]. intros i v Hv.
    assert (Hi : i < length lb) by (rewrite <- L; apply nth_error_Some; congruence).
    destruct (nth_error lb i) as [lo|] eqn:E1; [|apply nth_error_None in E1; lia].
    destruct (nth_error ub i) as [hi|] eqn:E2; [|apply nth_error_None in E2; lia].
    exists lo, hi. split.
    + exists lb, ub. repeat split; auto. right. split; [|auto]. intros A. apply one_range_iff in A. congruence.
    + specialize (K i v (lo, (hi + 1)%Z) Hv). cbn in K.
      assert (lo <= v < hi + 1)%Z; [|lia]. apply K. apply nth_combine; [exact E1|].
      rewrite nth_error_map, E2. reflexivity.
Qed.
