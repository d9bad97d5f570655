(** Whole runs of the annealing agent: the moves made, the rows used, and when a run completes. *)
Require Import List ZArith Arith Lia Bool Reals Lra Permutation.
Require Import Verif.SR_Model Verif.SR_Spec Verif.SR_Proofs Verif.SR_Moves.
Import ListNotations.

(** ** Every proposal is a move from the point of the step. *)
Lemma build_moves : forall fuel c fit raws D s,
  build fuel c fit raws D = Done s ->
  exists l x0, init_limits c = Done l /\ init_x c l raws = Done x0 /\ c_swap c <> OtherSwap /\
    chain_ok c fit D x0 s /\
    forall k e, nth_error (s_events s) k = Some e ->
      exists inds inds', move fuel c l (e_from e) inds (D (S k)) = Done (e_new e, inds', e_row e).
Proof.
  intros fuel c fit raws D s H. apply build_inv in H. destruct H as (l & x0 & Hl & Hx & Hk & H).
  exists l, x0. split; [exact Hl|]. split; [exact Hx|]. split; [exact Hk|].
  apply (loop_inv fuel c l fit D (fun s => chain_ok c fit D x0 s /\
    forall k e, nth_error (s_events s) k = Some e ->
      exists inds inds', move fuel c l (e_from e) inds (D (S k)) = Done (e_new e, inds', e_row e))) in H.
  - tauto.
  - intros a b _ (Ha & Hm) Hs. split; [eapply chain_step; eauto|].
    pose proof (ok_len _ _ _ _ _ Ha) as Hlen.
    apply step_inv in Hs. destruct Hs as (T & m & ev & _ & Hmv & _ & _ & _ & E3 & Hev & _).
    intros k e Hk'. rewrite E3 in Hk'. destruct (lt_dec k (length (s_events a))) as [Hd|Hd].
    + rewrite nth_error_app1 in Hk' by exact Hd. eauto.
    + rewrite nth_error_app2 in Hk' by lia.
      destruct (k - length (s_events a)) as [|k'] eqn:Ek; cbn in Hk'; [|destruct k'; discriminate].
      injection Hk' as <-. subst ev. cbn. replace k with (s_step a) by lia.
      destruct m as [[x' i'] row]. cbn in *. eauto.
  - split; [apply chain_start|]. intros [|k] e He; discriminate.
Qed.

Lemma linked_all : forall (Q : list Z -> Prop) es x r,
  linked x r es -> Q x -> (forall e, In e es -> Q (e_from e) -> Q (e_new e)) ->
  forall e, In e es -> Q (e_from e) /\ Q (e_new e).
Proof.
  intros Q es x r H. induction H as [|x r e es H1 H2 H3 H4 H5 IH]; intros Hx Hm e' He; [destruct He|].
  assert (Hn : Q (e_new e)) by (apply Hm; [left; reflexivity|congruence]).
  destruct He as [<-|He]; [split; congruence|]. apply IH; auto.
  - assert (A : e_after e = e_new e \/ e_after e = x).
    { destruct (Rle_dec (e_from_r e) (e_new_r e)) as [A|A]; [left; apply H3; left; exact A|].
      destruct (Rle_dec (e_alpha e) (exp ((e_new_r e - e_from_r e) / e_temp e))) as [B|B].
      - left. apply H3. right. exact B.
      - right. apply H4. intros [C|C]; contradiction. }
    destruct A as [-> | ->]; assumption.
  - intros e2 H2'. apply Hm. right. exact H2'.
Qed.

(** ** Bounds. *)
Lemma build_box : forall fuel c fit raws D s,
  build fuel c fit raws D = Done s -> good_bounds c -> c_start c = None ->
  (c_swap c = Kbs -> forall r, In r (c_rows c) -> in_box c r /\ length r = c_size c) ->
  exists x0, in_box c x0 /\ length x0 = c_size c /\ linked x0 (fit 0%nat x0) (s_events s) /\
    forall e, In e (s_events s) -> in_box c (e_new e) /\ length (e_new e) = c_size c.
Proof.
  intros fuel c fit raws D s H Hg Hs Hr. apply build_moves in H.
  destruct H as (l & x0 & Hl & Hx & _ & Hok & Hm). destruct (init_box _ _ _ _ Hl Hg Hs Hx) as (Hlen & Hb).
  exists x0. split; [exact Hb|]. split; [exact Hlen|]. split; [apply Hok|].
  intros e He.
  apply (linked_all (fun x => in_box c x /\ length x = c_size c) (s_events s) x0 (fit 0%nat x0)); auto.
  - apply Hok.
  - intros e' He' (B1 & B2). apply In_nth_error in He'. destruct He' as (k & Hk).
    destruct (Hm k e' Hk) as (i1 & i2 & Hmv). split.
    + eapply move_box; eauto. intros E. apply Forall_forall. intros r Hin. apply Hr; auto.
    + rewrite <- B2. eapply move_length; eauto. intros E. apply Forall_forall. intros r Hin. rewrite B2. apply Hr; auto.
Qed.

(** ** The single kinds of moves. *)
Lemma build_single : forall fuel c fit raws D s,
  build fuel c fit raws D = Done s -> c_swap c = Single ->
  forall e, In e (s_events s) -> exists i, i < c_size c /\ differ_at [i] (e_from e) (e_new e) /\ i < length (e_from e).
Proof.
  intros fuel c fit raws D s H Hk e He. apply build_moves in H.
  destruct H as (l & x0 & Hl & Hx & _ & Hok & Hm). apply In_nth_error in He. destruct He as (k & He).
  destruct (Hm k e He) as (i1 & i2 & Hmv). apply move_done in Hmv. rewrite Hk in Hmv. destruct Hmv as (Hmv & _).
  apply single_done in Hmv. destruct Hmv as (i & v & r & A & B & _ & _ & _ & C). eauto.
Qed.
Lemma build_dual : forall fuel c fit raws D s,
  build fuel c fit raws D = Done s -> c_swap c = Dual ->
  forall e, In e (s_events s) -> exists i j, i < j < c_size c /\ differ_at [i; j] (e_from e) (e_new e) /\
    j < length (e_from e).
Proof.
  intros fuel c fit raws D s H Hk e He. apply build_moves in H.
  destruct H as (l & x0 & Hl & Hx & _ & Hok & Hm). apply In_nth_error in He. destruct He as (k & He).
  destruct (Hm k e He) as (i1 & i2 & Hmv). apply move_done in Hmv. rewrite Hk in Hmv. destruct Hmv as (Hmv & _).
  apply dual_done in Hmv. destruct Hmv as (i & j & v & w & r & r' & A & B & Hne & Li & Lj & _ & _ & _ & _ & _ & C).
  destruct (lt_dec i j) as [Hd|Hd].
  - exists i, j. auto.
  - exists j, i. split; [lia|]. split; [|exact Li]. destruct C as (C1 & C2). split; [exact C1|].
    intros q Hq. rewrite <- (C2 q Hq). cbn. tauto.
Qed.
Lemma build_quad : forall fuel c fit raws D s,
  build fuel c fit raws D = Done s -> c_swap c = Quad ->
  exists x0, linked x0 (fit 0%nat x0) (s_events s) /\
    forall e, In e (s_events s) -> e_from e = x0 /\ e_new e = x0.
Proof.
  intros fuel c fit raws D s H Hk. apply build_moves in H.
  destruct H as (l & x0 & Hl & Hx & _ & Hok & Hm). exists x0. split; [apply Hok|].
  intros e He. apply (linked_all (fun x => x = x0) (s_events s) x0 (fit 0%nat x0)); auto.
  - apply Hok.
  - intros e' He' B. apply In_nth_error in He'. destruct He' as (k & He').
    destruct (Hm k e' He') as (i1 & i2 & Hmv). apply move_done in Hmv. rewrite Hk in Hmv. destruct Hmv as (Hmv & _).
    apply quad_done in Hmv. destruct Hmv as (_ & _ & ->). exact B.
Qed.

Lemma build_full : forall fuel c fit raws D s k e i,
  build fuel c fit raws D = Done s -> c_swap c = Full ->
  (forall lb, c_lb c = Some lb -> length lb <> 1) ->
  nth_error (s_events s) k = Some e ->
  nth_error (e_new e) i <> nth_error (e_from e) i -> (d_coins (D (S k)) i < c_indpb c)%R.
Proof.
  intros fuel c fit raws D s k e i H Hk Hlb He Hi. apply build_moves in H.
  destruct H as (l & x0 & Hl & Hx & _ & Hok & Hm).
  destruct (Hm k e He) as (i1 & i2 & Hmv). apply move_done in Hmv. rewrite Hk in Hmv. destruct Hmv as (Hmv & _).
  unfold fullswap in Hmv. destruct (one_range l) eqn:E.
  - apply limits_inv in Hl. destruct Hl as (lb & ub & A1 & _ & ->). apply one_range_iff in E.
    exfalso. apply (Hlb lb A1). tauto.
  - apply lift_done in Hmv. apply redraw_spec in Hmv. destruct Hmv as (L & K).
    destruct (nth_error (e_from e) i) as [a|] eqn:Ea.
    + destruct (nth_error (e_new e) i) as [b|] eqn:Eb.
      * destruct (K i a b Ea Eb) as [(_ & ->)|(C & _)]; [contradiction|exact C].
      * apply nth_error_None in Eb. assert (i < length (e_from e)) by (apply nth_error_Some; congruence). lia.
    + apply nth_error_None in Ea. exfalso. apply Hi. apply nth_error_None. lia.
Qed.

Lemma list_ext : forall V (a b : list V), (forall i, nth_error a i = nth_error b i) -> a = b.
Proof.
  induction a as [|x a IH]; intros [|y b] H; auto.
  - specialize (H 0). discriminate.
  - specialize (H 0). discriminate.
  - pose proof (H 0) as H0. cbn in H0. injection H0 as ->. f_equal. apply IH. intros i. apply (H (S i)).
Qed.

(** With one range for all coordinates every one of them is drawn again, whatever [indpb]. *)
Lemma build_full_one : forall fuel c fit raws D s k e lo hi,
  build fuel c fit raws D = Done s -> c_swap c = Full ->
  c_lb c = Some [lo] -> c_ub c = Some [hi] ->
  nth_error (s_events s) k = Some e ->
  e_new e = map (fun i => value_of lo hi (d_ints (D (S k)) i)) (seq 0 (length (e_from e))).
Proof.
  intros fuel c fit raws D s k e lo hi H Hk Hlb Hub He. apply build_moves in H.
  destruct H as (l & x0 & Hl & Hx & _ & Hok & Hm).
  destruct (Hm k e He) as (i1 & i2 & Hmv). apply move_done in Hmv. rewrite Hk in Hmv. destruct Hmv as (Hmv & _).
  apply limits_inv in Hl. destruct Hl as (lb & ub & A1 & A2 & ->). rewrite Hlb in A1. rewrite Hub in A2.
  injection A1 as <-. injection A2 as <-. cbn in Hmv. apply lift_done in Hmv.
  unfold randint_array in Hmv. destruct (lo <? hi + 1)%Z; [|discriminate].
  apply randints_spec in Hmv. destruct Hmv as (L & K).
  apply list_ext. intros i. destruct (lt_dec i (length (e_from e))) as [Hd|Hd].
  - destruct (nth_error (e_new e) i) as [v|] eqn:Ev; [|apply nth_error_None in Ev; lia].
    destruct (K i v Ev) as (_ & Hv). symmetry. erewrite map_nth_error; [|].
    2:{ rewrite nth_error_nth' with (d := 0) by (rewrite seq_length; exact Hd). rewrite seq_nth by exact Hd. reflexivity. }
    f_equal. rewrite Hv. reflexivity.
  - transitivity (@None Z); [apply nth_error_None; lia|symmetry; apply nth_error_None; rewrite map_length, seq_length; lia].
Qed.

(** ** The rows of the dataset. *)
Lemma remove_first_perm : forall k l, In k l -> Permutation l (k :: remove_first k l).
Proof.
  induction l as [|a l IH]; intros H; [destruct H|]. cbn. destruct (a =? k) eqn:E.
  - apply Nat.eqb_eq in E. subst. apply Permutation_refl.
  - apply Nat.eqb_neq in E. destruct H as [H|H]; [contradiction|].
    eapply perm_trans; [apply perm_skip, IH, H|]. apply perm_swap.
Qed.

Lemma rows_used_snoc : forall evs e,
  rows_used (evs ++ [e]) = rows_used evs ++ match e_row e with Some k => [k] | None => [] end.
Proof.
  induction evs as [|a evs IH]; intros e; cbn; [destruct (e_row e); reflexivity|].
  rewrite IH. destruct (e_row a); reflexivity.
Qed.

Definition rows_inv (c : card) (s : state) : Prop :=
  exists bs cur, rows_used (s_events s) = concat bs ++ cur /\
    Forall (fun b => Permutation b (seq 0 (length (c_rows c)))) bs /\
    Permutation (cur ++ s_inds s) (seq 0 (length (c_rows c))).

Lemma build_rows : forall fuel c fit raws D s,
  build fuel c fit raws D = Done s ->
  exists bs cur, rows_used (s_events s) = concat bs ++ cur /\
    Forall (fun b => Permutation b (seq 0 (length (c_rows c)))) bs /\
    NoDup cur /\ incl cur (seq 0 (length (c_rows c))).
Proof.
  intros fuel c fit raws D s H. apply build_inv in H. destruct H as (l & x0 & Hl & Hx & _ & H).
  apply (loop_inv fuel c l fit D (rows_inv c)) in H.
  - destruct H as ((bs & cur & A & B & C) & _). exists bs, cur. split; [exact A|]. split; [exact B|].
    assert (Hnd : NoDup (cur ++ s_inds s)) by (apply (Permutation_NoDup (Permutation_sym C)), seq_NoDup).
    split.
    + clear -Hnd. induction cur as [|a cur IH]; [constructor|]. cbn in Hnd. inversion Hnd; subst.
      constructor; [|auto]. intros Hin. apply H1. apply in_app_iff. auto.
    + intros k Hk. apply (Permutation_in _ C). apply in_app_iff. auto.
  - intros a b _ (bs & cur & A & B & C) Hs. apply step_inv in Hs.
    destruct Hs as (T & [[x' inds'] row] & ev & _ & Hmv & _ & _ & E2 & E3 & Hev & _). cbn in E2.
    assert (Hrow : e_row ev = row) by (subst ev; reflexivity). clear Hev.
    unfold rows_inv. rewrite E3, rows_used_snoc, Hrow, E2, A.
    apply move_done in Hmv.
    assert (Hsame : inds' = s_inds a /\ row = None ->
      exists bs0 cur0, (concat bs ++ cur) ++ match row with Some k => [k] | None => [] end = concat bs0 ++ cur0 /\
        Forall (fun b0 => Permutation b0 (seq 0 (length (c_rows c)))) bs0 /\
        Permutation (cur0 ++ inds') (seq 0 (length (c_rows c)))).
    { intros (-> & ->). exists bs, cur. rewrite app_nil_r. auto. }
    destruct (c_swap c); try (apply Hsame; tauto); try contradiction.
    apply kbs_done in Hmv. destruct Hmv as [(_ & k & -> & Hin & _ & Hi)|(_ & Hr & Hi & _)]; [|apply Hsame; auto].
    apply remove_first_perm in Hin.
    assert (Hp : Permutation (cur ++ k :: remove_first k (s_inds a)) (seq 0 (length (c_rows c)))).
    { eapply perm_trans; [|exact C]. apply Permutation_app_head. apply Permutation_sym. exact Hin. }
    destruct (remove_first k (s_inds a)) as [|z zs] eqn:Ez.
    + exists (bs ++ [cur ++ [k]]), []. split; [|split].
      * rewrite concat_app. cbn. rewrite !app_nil_r, <- app_assoc. reflexivity.
      * apply Forall_app. split; [exact B|]. constructor; [exact Hp|constructor].
      * rewrite Hi. apply Permutation_refl.
    + exists bs, (cur ++ [k]). split; [|split].
      * rewrite <- app_assoc. reflexivity.
      * exact B.
      * rewrite Hi, <- app_assoc. exact Hp.
  - exists [], []. cbn. split; [reflexivity|]. split; [constructor|]. apply Permutation_refl.
Qed.

Lemma build_row_point : forall fuel c fit raws D s k e,
  build fuel c fit raws D = Done s -> c_swap c = Kbs -> nth_error (s_events s) k = Some e ->
  ((d_kcoin (D (S k)) < c_pkbs c)%R /\ exists j, e_row e = Some j /\ nth_error (c_rows c) j = Some (e_new e)) \/
  ((c_pkbs c <= d_kcoin (D (S k)))%R /\ e_row e = None /\
   forall i, nth_error (e_new e) i <> nth_error (e_from e) i -> (d_coins (D (S k)) i < c_indpb c)%R).
Proof.
  intros fuel c fit raws D s k e H Hk He. apply build_moves in H.
  destruct H as (l & x0 & Hl & Hx & _ & Hok & Hm).
  destruct (Hm k e He) as (i1 & i2 & Hmv). apply move_done in Hmv. rewrite Hk in Hmv.
  apply kbs_done in Hmv. destruct Hmv as [(A & j & B & _ & C & _)|(A & B & _ & C)]; [left; eauto|right].
  split; [exact A|]. split; [exact B|]. intros i Hi. apply redraw_spec in C. destruct C as (L & K).
  destruct (nth_error (e_from e) i) as [a|] eqn:Ea.
  + destruct (nth_error (e_new e) i) as [b|] eqn:Eb.
    * destruct (K i a b Ea Eb) as [(_ & ->)|(C & _)]; [contradiction|exact C].
    * apply nth_error_None in Eb. assert (i < length (e_from e)) by (apply nth_error_Some; congruence). lia.
  + apply nth_error_None in Ea. exfalso. apply Hi. apply nth_error_None. lia.
Qed.

(** ** Runs that complete. *)
Lemma resample1_ok : forall fuel k r cur raws,
  (fst r < snd r)%Z -> (exists j, j < fuel /\ (fst r + fst (raws (k + j)%nat) mod (snd r - fst r))%Z <> cur) ->
  exists v, resample1 fuel k r cur raws = Done v.
Proof.
  induction fuel as [|f IH]; intros k r cur raws Hr (j & Hj & Hv); [lia|]. cbn.
  rewrite randint_ok by exact Hr. cbn.
  destruct (cur =? fst r + fst (raws k) mod (snd r - fst r))%Z eqn:E; [|eauto].
  apply Z.eqb_eq in E. destruct j as [|j]; [rewrite Nat.add_0_r in Hv; congruence|].
  apply IH; [exact Hr|]. exists j. split; [lia|]. replace (S k + j) with (k + S j) by lia. exact Hv.
Qed.
Lemma resample2_ok : forall fuel k r r' cur cur' raws,
  (fst r < snd r)%Z -> (fst r' < snd r')%Z ->
  (exists j, j < fuel /\ (fst r + fst (raws (k + j)%nat) mod (snd r - fst r))%Z <> cur /\
                         (fst r' + snd (raws (k + j)%nat) mod (snd r' - fst r'))%Z <> cur') ->
  exists v, resample2 fuel k r r' cur cur' raws = Done v.
Proof.
  induction fuel as [|f IH]; intros k r r' cur cur' raws Hr Hr' (j & Hj & Hv & Hw); [lia|]. cbn.
  rewrite !randint_ok by assumption. cbn.
  destruct ((cur =? fst r + fst (raws k) mod (snd r - fst r))%Z ||
            (cur' =? fst r' + snd (raws k) mod (snd r' - fst r'))%Z)%bool eqn:E; [|eauto].
  apply orb_true_iff in E. rewrite !Z.eqb_eq in E.
  destruct j as [|j]; [rewrite Nat.add_0_r in *; destruct E; congruence|].
  apply IH; auto. exists j. split; [lia|]. replace (S k + j) with (k + S j) by lia. auto.
Qed.

Lemma pick2_ok : forall n a b, 2 <= n -> exists i j, pick2 n a b = Some (i, j).
Proof.
  intros n a b H. unfold pick2. destruct (n <? 2) eqn:E; [apply Nat.ltb_lt in E; lia|]. cbv zeta. eauto.
Qed.

Lemma good_range : forall c l i, init_limits c = Done l -> good_bounds c -> i < c_size c ->
  exists r, range_of l i = Some r /\ (fst r < snd r)%Z.
Proof.
  intros c l i Hl (lb & ub & H1 & H2 & H3 & H4 & H5) Hi. apply limits_inv in Hl.
  destruct Hl as (lb' & ub' & A1 & A2 & ->). rewrite H1 in A1. rewrite H2 in A2.
  injection A1 as <-. injection A2 as <-. unfold range_of. cbn [l_lb l_ub].
  set (k := if one_range _ then 0 else i).
  assert (Hk : k < length lb).
  { unfold k. destruct (one_range _) eqn:E.
    - apply one_range_iff in E. lia.
    - destruct H4 as [H4|H4]; [|lia]. exfalso.
      assert (one_range (mkLimits lb (map (fun u => (u + 1)%Z) ub)) = true) by (apply one_range_iff; lia).
      congruence. }
  destruct (nth_error lb k) as [lo|] eqn:E1; [|apply nth_error_None in E1; lia].
  rewrite nth_error_map. destruct (nth_error ub k) as [hi|] eqn:E2; [|apply nth_error_None in E2; lia].
  cbn. exists (lo, (hi + 1)%Z). split; [reflexivity|]. cbn. specialize (H5 k lo hi E1 E2). lia.
Qed.

Lemma redraw_ok : forall l p d x i, (forall k, k < length x -> exists r, range_of l (i + k) = Some r /\ (fst r < snd r)%Z) ->
  exists y, redraw l p i x d = Some y.
Proof.
  intros l p d. induction x as [|a x IH]; intros i H; cbn; [eauto|].
  destruct (IH (S i)) as (t & Ht).
  { intros k Hk. replace (S i + k) with (i + S k) by lia. apply H. cbn. lia. }
  rewrite Ht. destruct (Rlt_dec (d_coins d i) p) as [Hc|Hc]; [|eauto].
  destruct (H 0) as (r & Hr & Hlt); [cbn; lia|]. rewrite Nat.add_0_r in Hr. rewrite Hr, randint_ok by exact Hlt. eauto.
Qed.

Lemma good_one : forall c l, init_limits c = Done l -> good_bounds c -> one_range l = true ->
  exists lo hi, l_lb l = [lo] /\ l_ub l = [hi] /\ (lo < hi)%Z.
Proof.
  intros c l Hl (lb & ub & H1 & H2 & H3 & H4 & H5) E. apply limits_inv in Hl.
  destruct Hl as (lb' & ub' & A1 & A2 & ->). rewrite H1 in A1. rewrite H2 in A2.
  injection A1 as <-. injection A2 as <-. apply one_range_iff in E. destruct E as (E1 & E2).
  destruct lb as [|lo [|? ?]]; try discriminate. destruct ub as [|hi [|? ?]]; try discriminate.
  exists lo, (hi + 1)%Z. cbn. repeat split; auto. specialize (H5 0 lo hi eq_refl eq_refl). lia.
Qed.

Lemma init_ok : forall c l raws, init_limits c = Done l -> good_bounds c -> c_start c = None ->
  exists x0, init_x c l raws = Done x0.
Proof.
  intros c l raws Hl Hg Hs. unfold init_x. rewrite Hs. destruct (one_range l) eqn:E.
  - destruct (good_one c l Hl Hg E) as (lo & hi & -> & -> & Hlt). unfold randint_array.
    destruct (lo <? hi)%Z eqn:E2; [|apply Z.ltb_ge in E2; lia].
    destruct (randints_ok lo hi raws Hlt (c_size c) 0) as (y & ->). cbn. eauto.
  - destruct Hg as (lb & ub & H1 & H2 & H3 & H4 & H5). apply limits_inv in Hl.
    destruct Hl as (lb' & ub' & A1 & A2 & ->). rewrite H1 in A1. rewrite H2 in A2.
    injection A1 as <-. injection A2 as <-. cbn [l_lb l_ub]. unfold broadcast. rewrite map_length, H3, Nat.eqb_refl.
    clear -H3 H5. assert (forall i, exists y, randint_each (combine lb (map (fun u => (u + 1)%Z) ub)) i raws = Some y).
    { revert ub H3 H5. induction lb as [|lo lb IH]; intros [|hi ub] H3 H5 i; cbn in *; try discriminate; [eauto|].
      rewrite randint_ok by (specialize (H5 0 lo hi eq_refl eq_refl); lia).
      destruct (IH ub ltac:(lia)) with (i := S i) as (t & ->); [|eauto].
      intros k a b Ha Hb. apply (H5 (S k) a b); auto. }
    destruct (H 0) as (y & ->). cbn. eauto.
Qed.

Lemma limits_ok : forall c, good_bounds c -> exists l, init_limits c = Done l.
Proof. intros c (lb & ub & H1 & H2 & _). unfold init_limits. rewrite H1, H2. eauto. Qed.

Lemma move_ok : forall fuel c l x inds D k,
  init_limits c = Done l -> runnable fuel c D -> length x = c_size c ->
  (c_swap c = Kbs -> inds <> [] /\ incl inds (seq 0 (length (c_rows c)))) ->
  exists m, move fuel c l x inds (D k) = Done m.
Proof.
  intros fuel c l x inds D k Hl (Hg & Hs & Hf & Hc & Hr) Hx Hi. unfold move.
  destruct (c_swap c) eqn:E.
  - destruct Hr as (Hn & Ha). unfold singleswap.
    destruct (pick2_ok (c_size c) (d_a (D k)) (d_b (D k)) Hn) as (i & j & Hp). rewrite Hp. cbn [lift bind fst snd].
    apply pick2_some in Hp. destruct Hp as (Pi & Pj & _).
    destruct (good_range c l i Hl Hg Pi) as ([a b] & Hra & Hlt). rewrite Hra. cbn [lift bind].
    destruct (nth_error x i) as [cur|] eqn:Ec; [|apply nth_error_None in Ec; lia]. cbn [lift bind].
    destruct (resample1_ok fuel 0 (a, b) cur (d_pairs (D k)) Hlt) as (v & ->); [|cbn; eauto].
    apply (range_iff c l i a b Hl) in Hra.
    destruct (Ha k i i a (b - 1)%Z a (b - 1)%Z cur cur Hra Hra) as (q & Q1 & Q2 & _).
    exists q. split; [exact Q1|]. cbn. unfold value_of in Q2. replace (b - a)%Z with (b - 1 + 1 - a)%Z by lia. exact Q2.
  - destruct Hr as (Hn & Ha). unfold dualswap.
    destruct (pick2_ok (c_size c) (d_a (D k)) (d_b (D k)) Hn) as (i & j & Hp). rewrite Hp. cbn [lift bind fst snd].
    apply pick2_some in Hp. destruct Hp as (Pi & Pj & _).
    destruct (good_range c l i Hl Hg Pi) as ([a b] & Hra & Hlt). rewrite Hra. cbn [lift bind].
    destruct (good_range c l j Hl Hg Pj) as ([a' b'] & Hra' & Hlt'). rewrite Hra'. cbn [lift bind].
    destruct (nth_error x i) as [cur|] eqn:Ec; [|apply nth_error_None in Ec; lia]. cbn [lift bind].
    destruct (nth_error x j) as [cur'|] eqn:Ec'; [|apply nth_error_None in Ec'; lia]. cbn [lift bind].
    destruct (resample2_ok fuel 0 (a, b) (a', b') cur cur' (d_pairs (D k)) Hlt Hlt') as (v & ->); [|cbn; eauto].
    apply (range_iff c l i a b Hl) in Hra. apply (range_iff c l j a' b' Hl) in Hra'.
    destruct (Ha k i j a (b - 1)%Z a' (b' - 1)%Z cur cur' Hra Hra') as (q & Q1 & Q2 & Q3).
    exists q. split; [exact Q1|]. cbn. unfold value_of in Q2, Q3.
    replace (b - a)%Z with (b - 1 + 1 - a)%Z by lia. replace (b' - a')%Z with (b' - 1 + 1 - a')%Z by lia. auto.
  - destruct Hr as (Hn & Ha). unfold quadswap. destruct (c_size c <? 4) eqn:E4; [apply Nat.ltb_lt in E4; lia|].
    destruct (one_range l) eqn:E1; [|cbn; eauto]. apply limits_inv in Hl. destruct Hl as (lb & ub & A1 & _ & ->).
    apply one_range_iff in E1. specialize (Ha lb A1). lia.
  - unfold fullswap. destruct (one_range l) eqn:E1.
    + destruct (good_one c l Hl Hg E1) as (lo & hi & -> & -> & Hlt). unfold randint_array.
      destruct (lo <? hi)%Z eqn:E2; [|apply Z.ltb_ge in E2; lia].
      destruct (randints_ok lo hi (d_ints (D k)) Hlt (length x) 0) as (y & ->). cbn. eauto.
    + destruct (redraw_ok l (c_indpb c) (D k) x 0) as (y & ->); [|cbn; eauto].
      intros q Hq. apply (good_range c l); auto. cbn. lia.
  - destruct Hr as (Hn & Ha). destruct (Hi eq_refl) as (Hne & Hincl). unfold kbs.
    destruct (Rlt_dec (d_kcoin (D k)) (c_pkbs c)).
    + unfold kbs_row. assert (Hlen : length inds <> 0) by (destruct inds; [congruence|discriminate]).
      assert (Hm : d_row (D k) mod length inds < length inds) by (apply Nat.mod_upper_bound; exact Hlen).
      destruct (nth_error inds (d_row (D k) mod length inds)) as [q|] eqn:Eq; [|apply nth_error_None in Eq; lia].
      cbn [lift bind]. cbv zeta.
      assert (Hq : q < length (c_rows c)).
      { apply nth_error_In in Eq. apply Hincl in Eq. apply in_seq in Eq. lia. }
      destruct (nth_error (c_rows c) q) as [row|] eqn:Er; [|apply nth_error_None in Er; lia]. cbn. eauto.
    + destruct (redraw_ok l (c_indpb c) (D k) x 0) as (y & ->); [|cbn; eauto].
      intros u Hu. apply (good_range c l); auto. cbn. lia.
  - contradiction.
Qed.

Lemma temp_ok : forall c k, c_cooling c <> OtherCooling -> exists T, temperature c k = Some T.
Proof. intros c k H. unfold temperature. destruct (c_cooling c); eauto. congruence. Qed.

Lemma step_ok : forall fuel c l fit d s m,
  c_cooling c <> OtherCooling -> c_freq c <> 0 -> move fuel c l (s_x s) (s_inds s) d = Done m ->
  exists s', anneal_step fuel c l fit d s = Done s'.
Proof.
  intros fuel c l fit d s m Hc Hf Hm. unfold anneal_step.
  destruct (temp_ok c (S (s_step s)) Hc) as (T & ->). cbn [lift bind]. rewrite Hm. cbn [bind]. cbv zeta.
  destruct (c_freq c) as [|fr]; [contradiction|].
  destruct ((S (s_step s) mod S fr =? 0) || (S (s_step s) =? c_steps c))%bool; eauto.
Qed.

Lemma loop_total : forall fuel c l fit D (I : state -> Prop),
  (forall s, I s -> s_step s <= c_steps c ->
     exists s', anneal_step fuel c l fit (D (S (s_step s))) s = Done s' /\ I s' /\ s_step s' = S (s_step s)) ->
  forall n s, I s -> S (c_steps c) - s_step s <= n -> exists s', anneal_loop n fuel c l fit D s = Done s'.
Proof.
  intros fuel c l fit D I Hstep. induction n as [|n IH]; intros s HI Hn; cbn.
  - destruct (s_step s <=? c_steps c) eqn:E; [apply Nat.leb_le in E; lia|eauto].
  - destruct (s_step s <=? c_steps c) eqn:E; [|eauto]. apply Nat.leb_le in E.
    destruct (Hstep s HI E) as (s' & -> & HI' & Hs'). cbn. apply IH; [exact HI'|lia].
Qed.

Lemma build_total : forall fuel c fit raws D, runnable fuel c D -> exists s, build fuel c fit raws D = Done s.
Proof.
  intros fuel c fit raws D Hrun. pose proof Hrun as (Hg & Hs & Hf & Hc & Hr).
  destruct (limits_ok c Hg) as (l & Hl). destruct (init_ok c l raws Hl Hg Hs) as (x0 & Hx).
  unfold build. rewrite Hl. cbn [bind]. rewrite Hx. cbn [bind]. cbv zeta.
  assert (Hk : known_swap (c_swap c) = true) by (destruct (c_swap c); try reflexivity; contradiction).
  rewrite Hk.
  apply (loop_total fuel c l fit D (fun s => s_xprev s = s_x s /\ length (s_x s) = c_size c /\
    (c_swap c = Kbs -> s_inds s <> [] /\ incl (s_inds s) (seq 0 (length (c_rows c)))))).
  - intros s (Hp & Hx1 & Hi) Hle.
    destruct (move_ok fuel c l (s_x s) (s_inds s) D (S (s_step s)) Hl Hrun Hx1 Hi) as (m & Hm).
    destruct (step_ok fuel c l fit _ s m Hc Hf Hm) as (s' & Hs'). exists s'. split; [exact Hs'|].
    apply step_inv in Hs'.
    destruct Hs' as (T & m' & ev & _ & Hm' & _ & E1 & E2 & _ & Hev & Hca & _).
    rewrite Hm in Hm'. injection Hm' as <-. destruct m as [[x' inds'] row]. cbn in E2.
    assert (Hlen : length x' = length (s_x s)).
    { eapply move_length; eauto. intros E. rewrite E in Hr. apply Forall_forall. intros r Hin. rewrite Hx1. apply Hr. exact Hin. }
    assert (Hnew : e_new ev = x') by (subst ev; reflexivity). clear Hev.
    split; [|exact E1]. split; [|split].
    + destruct Hca as [Hca|Hca]; specialize (Hca Hp); intuition congruence.
    + destruct Hca as [Hca|Hca]; specialize (Hca Hp).
      * destruct Hca as (_ & -> & _). congruence.
      * destruct Hca as (_ & -> & _). exact Hx1.
    + intros E. specialize (Hi E). apply move_done in Hm. rewrite E in Hm. rewrite E2.
      apply kbs_done in Hm. destruct Hm as [(_ & k & _ & Hin & _ & ->)|(_ & _ & -> & _)]; [|exact Hi].
      rewrite E in Hr. apply remove_first_perm in Hin.
      destruct (remove_first k (s_inds s)) as [|z zs] eqn:Ez.
      * split; [|apply incl_refl]. destruct (c_rows c) as [|r0 rs]; [tauto|discriminate].
      * split; [discriminate|]. intros q Hq. apply (proj2 Hi). apply (Permutation_in _ (Permutation_sym Hin)).
        right. exact Hq.
  - cbn. split; [reflexivity|]. split; [eapply init_box; eauto|].
    intros E. rewrite E in Hr. split; [|apply incl_refl]. destruct (c_rows c) as [|r0 rs]; [tauto|discriminate].
  - cbn. lia.
Qed.

(** ** Runs that never end, and refusals. *)
Lemma randint_const : forall lo hi raw, hi = (lo + 1)%Z -> randint lo hi raw = Some lo.
Proof.
  intros lo hi raw ->. rewrite randint_ok by lia. replace (lo + 1 - lo)%Z with 1%Z by lia.
  rewrite Z.mod_1_r. f_equal. lia.
Qed.
Lemma resample1_const : forall fuel k lo hi raws, hi = (lo + 1)%Z -> resample1 fuel k (lo, hi) lo raws = Loops.
Proof.
  induction fuel as [|f IH]; intros k lo hi raws H; cbn; [reflexivity|].
  rewrite randint_const by exact H. cbn. rewrite Z.eqb_refl. apply IH. exact H.
Qed.
Lemma resample2_const : forall fuel k lo hi r2 cur2 raws, hi = (lo + 1)%Z -> (fst r2 < snd r2)%Z ->
  resample2 fuel k (lo, hi) r2 lo cur2 raws = Loops.
Proof.
  induction fuel as [|f IH]; intros k lo hi r2 cur2 raws H H2; cbn; [reflexivity|].
  rewrite randint_const by exact H. cbn. rewrite randint_ok by exact H2. cbn. rewrite Z.eqb_refl. cbn. apply IH; assumption.
Qed.

Lemma build_constant : forall fuel c fit raws D,
  good_bounds c -> c_start c = None -> c_cooling c <> OtherCooling -> 2 <= c_size c ->
  c_swap c = Single \/ c_swap c = Dual -> c_lb c = c_ub c ->
  build fuel c fit raws D = Loops.
Proof.
  intros fuel c fit raws D Hg Hs Hc Hn Hk Heq.
  destruct (limits_ok c Hg) as (l & Hl). destruct (init_ok c l raws Hl Hg Hs) as (x0 & Hx).
  destruct (init_box c l raws x0 Hl Hg Hs Hx) as (Hlen & Hbox).
  unfold build. rewrite Hl. cbn [bind]. rewrite Hx. cbn [bind]. cbv zeta.
  assert (Hkk : known_swap (c_swap c) = true) by (destruct Hk as [-> | ->]; reflexivity).
  rewrite Hkk. cbn [anneal_loop s_step]. cbn [Nat.leb].
  assert (Hr : forall i, i < c_size c -> exists lo, range_of l i = Some (lo, (lo + 1)%Z) /\ nth_error x0 i = Some lo).
  { intros i Hi. destruct (good_range c l i Hl Hg Hi) as ([a b] & Hr & Hlt). cbn in Hlt.
    pose proof Hr as Hb. apply (range_iff c l i a b Hl) in Hb.
    assert (Hab : b = (a + 1)%Z).
    { destruct Hb as (lb & ub & A1 & A2 & A3). rewrite Heq in A1. rewrite A1 in A2. injection A2 as <-.
      destruct A3 as [(A3 & A4)|(_ & A3 & A4)].
      - rewrite A3 in A4. injection A4 as A4. lia.
      - rewrite A3 in A4. injection A4 as A4. lia. }
    subst b. exists a. split; [exact Hr|].
    destruct (nth_error x0 i) as [v|] eqn:Ev; [|apply nth_error_None in Ev; lia].
    destruct (Hbox i v Ev) as (lo & hi & Hb' & Hv).
    assert (lo = a /\ hi = a).
    { replace hi with (hi + 1 - 1)%Z in Hb' by lia. apply (range_iff c l i lo (hi + 1) Hl) in Hb'.
      rewrite Hr in Hb'. injection Hb' as -> E. split; [reflexivity|lia]. }
    f_equal. lia. }
  unfold anneal_step at 1. cbn [s_step s_x s_inds].
  destruct (temp_ok c 1 Hc) as (T & ->). cbn [lift bind].
  assert (Hm : move fuel c l x0 (seq 0 (length (c_rows c))) (D 1) = Loops); [|rewrite Hm; reflexivity].
  destruct (pick2_ok (c_size c) (d_a (D 1)) (d_b (D 1)) Hn) as (i & j & Hp).
  pose proof (pick2_some _ _ _ _ _ Hp) as (Pi & Pj & _).
  destruct (Hr i Pi) as (lo & R1 & R2). destruct (Hr j Pj) as (lo' & R3 & R4).
  unfold move. destruct Hk as [-> | ->].
  - unfold singleswap. rewrite Hp. cbn [lift bind fst snd]. rewrite R1. cbn [lift bind]. rewrite R2. cbn [lift bind].
    rewrite resample1_const by reflexivity. reflexivity.
  - unfold dualswap. rewrite Hp. cbn [lift bind fst snd]. rewrite R1, R3. cbn [lift bind]. rewrite R2, R4. cbn [lift bind].
    rewrite resample2_const; [reflexivity|reflexivity|cbn; lia].
Qed.

Lemma build_quad_raises : forall fuel c fit raws D lo hi,
  c_swap c = Quad -> c_lb c = Some [lo] -> c_ub c = Some [hi] ->
  forall s, build fuel c fit raws D <> Done s.
Proof.
  intros fuel c fit raws D lo hi Hk Hlb Hub s H. pose proof (build_count _ _ _ _ _ _ H) as Hn.
  apply build_moves in H. destruct H as (l & x0 & Hl & Hx & _ & Hok & Hm).
  destruct (s_events s) as [|e es] eqn:Ee; [discriminate|]. destruct (Hm 0 e eq_refl) as (i1 & i2 & Hmv).
  apply move_done in Hmv. rewrite Hk in Hmv. destruct Hmv as (Hmv & _). apply quad_done in Hmv.
  apply limits_inv in Hl. destruct Hl as (lb & ub & A1 & A2 & ->). rewrite Hlb in A1. rewrite Hub in A2.
  injection A1 as <-. injection A2 as <-. destruct Hmv as (_ & Hmv & _). discriminate.
Qed.
Lemma build_small_raises : forall fuel c fit raws D,
  ((c_swap c = Single \/ c_swap c = Dual) /\ c_size c < 2) \/ (c_swap c = Quad /\ c_size c < 4) ->
  forall s, build fuel c fit raws D <> Done s.
Proof.
  intros fuel c fit raws D Hk s H. pose proof (build_count _ _ _ _ _ _ H) as Hn.
  apply build_moves in H. destruct H as (l & x0 & Hl & Hx & _ & Hok & Hm).
  destruct (s_events s) as [|e es] eqn:Ee; [discriminate|]. destruct (Hm 0 e eq_refl) as (i1 & i2 & Hmv).
  apply move_done in Hmv. destruct Hk as [([Hk|Hk] & Hs)|(Hk & Hs)]; rewrite Hk in Hmv; destruct Hmv as (Hmv & _).
  - unfold singleswap, pick2 in Hmv. apply Nat.ltb_lt in Hs. rewrite Hs in Hmv. discriminate.
  - unfold dualswap, pick2 in Hmv. apply Nat.ltb_lt in Hs. rewrite Hs in Hmv. discriminate.
  - apply quad_done in Hmv. lia.
Qed.
