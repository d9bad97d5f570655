(** Proofs about predict and action_probability. *)
From Coq Require Import List Arith ZArith Reals Lra Lia Bool.
From Verif Require Import PD_Model PD_Spec PD_Proofs PD_Race PD_Multi PD_Gauss PD_Bern PD_Final LS_Spec LS_Model LS_Proofs LS_Loss AP_Model AP_Spec.
Import ListNotations.
Open Scope R_scope.

Lemma shape_eqb_iff : forall a b, shape_eqb a b = true <-> a = b.
Proof. intros. unfold shape_eqb. destruct (list_eq_dec _ a b); split; congruence. Qed.
Lemma shape_eqb_refl : forall a, shape_eqb a a = true. Proof. intros; apply shape_eqb_iff; reflexivity. Qed.

Lemma vec_single : forall s, s <> OOther -> is_vectorized (oshape s) s = Some false.
Proof. intros [sh| |k|k|] H; cbn [oshape is_vectorized]; try rewrite shape_eqb_refl; try reflexivity. congruence. Qed.
Lemma vec_batch : forall s n, s <> OOther -> is_vectorized (n :: oshape s) s = Some true.
Proof.
  intros s n H. assert (N : forall l : list nat, shape_eqb (n :: l) l = false).
  { intros l. destruct (shape_eqb (n :: l) l) eqn:E; [|reflexivity]. apply shape_eqb_iff in E. apply (f_equal (@length nat)) in E. cbn in E. lia. }
  destruct s as [sh| |k|k|]; cbn [oshape is_vectorized tl]; try rewrite N; try rewrite shape_eqb_refl; try rewrite Nat.eqb_refl; try reflexivity. congruence.
Qed.
Lemma vec_refused : forall s shape, s = OOther \/ (shape <> oshape s /\ forall n, shape <> n :: oshape s) -> is_vectorized shape s = None.
Proof.
  intros s shape [->|[A B]]; [reflexivity|]. destruct s as [sh| |k|k|]; cbn [oshape is_vectorized] in *.
  - destruct (shape_eqb shape sh) eqn:E; [apply shape_eqb_iff in E; congruence|].
    destruct (shape_eqb (tl shape) sh) eqn:E2; [|reflexivity]. apply shape_eqb_iff in E2. destruct shape as [|n t]; cbn in E2; [congruence|].
    exfalso. apply (B n). congruence.
  - destruct shape as [|n [|]]; try congruence; reflexivity.
  - destruct (shape_eqb shape [k]) eqn:E; [apply shape_eqb_iff in E; congruence|].
    destruct shape as [|n [|b [|]]]; try reflexivity. destruct (b =? k)%nat eqn:E2; [|reflexivity]. apply Nat.eqb_eq in E2. subst. exfalso. now apply (B n).
  - destruct (shape_eqb shape [k]) eqn:E; [apply shape_eqb_iff in E; congruence|].
    destruct shape as [|n [|b [|]]]; try reflexivity. destruct (b =? k)%nat eqn:E2; [|reflexivity]. apply Nat.eqb_eq in E2. subst. exfalso. now apply (B n).
  - reflexivity.
Qed.

Lemma concat_len : forall {A} k (rows : list (list A)), Forall (fun r => length r = k) rows -> length (concat rows) = (length rows * k)%nat.
Proof. intros A k rows H. induction H; [reflexivity|]. cbn [concat length]. rewrite app_length, H, IHForall. lia. Qed.
Lemma chunks_concat : forall {A} k (rows : list (list A)), (0 < k)%nat -> Forall (fun r => length r = k) rows ->
  forall fuel, (length rows <= fuel)%nat -> chunks fuel k (concat rows) = rows.
Proof.
  intros A k rows K H. induction H as [|r rows L H IH]; intros fuel F.
  - destruct fuel; reflexivity.
  - cbn [length] in F. destruct fuel as [|f]; [lia|]. cbn [chunks concat].
    destruct (r ++ concat rows) as [|z zs] eqn:E.
    + apply app_eq_nil in E. destruct E as [-> _]. cbn in L. lia.
    + rewrite <- E. f_equal.
      * rewrite firstn_app, L, Nat.sub_diag. cbn. rewrite app_nil_r. apply firstn_all2. lia.
      * rewrite skipn_app, L, Nat.sub_diag. cbn [skipn]. rewrite skipn_all2 by lia. cbn [app]. apply IH. lia.
Qed.
Lemma reshape_rows : forall {A} k (rows : list (list A)), (0 < k)%nat -> Forall (fun r => length r = k) rows -> reshape k (concat rows) = Some rows.
Proof.
  intros A k rows K H. unfold reshape. destruct (k =? 0)%nat eqn:E; [apply Nat.eqb_eq in E; lia|].
  rewrite (concat_len k rows H), Nat.mod_mul by lia. cbn [Nat.eqb]. f_equal. apply chunks_concat; auto. nia.
Qed.
Lemma reshape_one : forall {A} k (r : list A), (0 < k)%nat -> length r = k -> reshape k r = Some [r].
Proof. intros A k r K L. rewrite <- (reshape_rows k [r] K) by (constructor; auto). cbn. now rewrite app_nil_r. Qed.

Lemma predict_one_eq : forall {O} (step : list (list O) -> list (list R)) s a (data : list O) act, s <> OOther -> length data = width s -> (0 < width s)%nat -> step [data] = [act] ->
  predict step false s a (oshape s) data = Some (One (match a with ABox lo hi => clip_row lo hi act | _ => act end)).
Proof.
  intros O step s a data act H L K E. unfold predict. rewrite vec_single by auto. change (size (oshape s)) with (width s).
  rewrite reshape_one by auto. rewrite E. destruct a; reflexivity.
Qed.
Lemma clip_row_bounded : forall lo hi x, box_ok (ABox lo hi) x -> bounded (ABox lo hi) x (clip_row lo hi x).
Proof.
  intros lo hi x (A & B & C). cbn [bounded]. unfold clip_row. split.
  - unfold map3. rewrite map_length, !combine_length. lia.
  - intros i I. rewrite (map3_nth (fun x0 lo0 hi0 => Rmin (Rmax x0 lo0) hi0) x lo hi A B).
    set (f := fun i0 : nat => Rmin (Rmax (nth i0 x 0) (nth i0 lo 0)) (nth i0 hi 0)).
    assert (E : nth i (map f (actions (length x))) 0 = f i).
    { transitivity (nth i (map f (actions (length x))) (f 0%nat)).
      - apply nth_indep. rewrite map_length. unfold actions. now rewrite seq_length.
      - rewrite (map_nth f). unfold actions. rewrite seq_nth by auto. reflexivity. }
    rewrite E. unfold f. specialize (C i I). remember (nth i x 0) as xi. remember (nth i lo 0) as li. remember (nth i hi 0) as hi'.
    unfold kept_within. pose proof (clip_within xi li hi' C) as W.
    unfold Rmin, Rmax. destruct (Rle_dec xi li); destruct (Rle_dec _ hi'); repeat split; intros; lra.
Qed.
Lemma predict_one : forall {O} (step : list (list O) -> list (list R)) s a (data : list O) act, s <> OOther -> (0 < width s)%nat -> observations s [data] -> step [data] = [act] -> box_ok a act ->
  exists y, predict step false s a (oshape s) data = Some (One y) /\ bounded a act y.
Proof.
  intros O step s a data act H K Ob E B. exists (match a with ABox lo hi => clip_row lo hi act | _ => act end). split.
  - apply predict_one_eq; auto. now apply Forall_inv in Ob.
  - destruct a; try reflexivity. now apply clip_row_bounded.
Qed.
Lemma predict_batch : forall {O} (step : list (list O) -> list (list R)) recurrent s a (rows : list (list O)), s <> OOther -> (0 < width s)%nat -> observations s rows ->
  Forall (box_ok a) (step rows) ->
  exists ys, predict step recurrent s a (length rows :: oshape s) (concat rows) = Some (Many ys) /\ Forall2 (bounded a) (step rows) ys.
Proof.
  intros O step rc s a rows H K Ob B. unfold predict. rewrite vec_batch by auto. change (size (oshape s)) with (width s).
  rewrite reshape_rows by auto. exists (clip_actions a (step rows)). split; [reflexivity|].
  destruct a; cbn [clip_actions]; try (clear; induction (step rows); constructor; auto; reflexivity).
  induction B; constructor; auto. now apply clip_row_bounded.
Qed.
Lemma predict_rowwise : forall {O} (f : list O -> list R) s a (rows : list (list O)), s <> OOther -> (0 < width s)%nat -> observations s rows ->
  exists ys, predict (map f) false s a (length rows :: oshape s) (concat rows) = Some (Many ys) /\
    Forall2 (fun r y => predict (map f) false s a (oshape s) r = Some (One y)) rows ys.
Proof.
  intros O f s a rows H K Ob. unfold predict at 1. rewrite vec_batch by auto. change (size (oshape s)) with (width s).
  rewrite reshape_rows by auto. eexists. split; [reflexivity|].
  unfold observations in Ob. induction Ob as [|r rows L Ob IH].
  - destruct a; constructor.
  - destruct a; cbn [clip_actions map] in *; constructor; auto; erewrite predict_one_eq; try reflexivity; auto.
Qed.
Lemma predict_refused : forall {O} (step : list (list O) -> list (list R)) recurrent s a shape data, s = OOther \/ (shape <> oshape s /\ forall n, shape <> n :: oshape s) ->
  predict step recurrent s a shape data = None.
Proof. intros. unfold predict. now rewrite vec_refused. Qed.
Lemma predict_recurrent : forall {O} (step : list (list O) -> list (list R)) s a data, predict step true s a (oshape s) data = None.
Proof.
  intros. unfold predict. destruct s; try reflexivity; rewrite vec_single by discriminate; destruct (reshape _ _); reflexivity.
Qed.

(** ** DQN *)
Lemma dqn_one : forall {O} (q : list O -> list R) s data, s <> OOther -> (0 < width s)%nat -> observations s [data] -> q data <> [] ->
  exists i, dqn_predict q s (oshape s) data = Some (One i) /\ first_best (q data) i.
Proof.
  intros O q s data H K Ob N. apply Forall_inv in Ob. destruct (argmax_exists _ N) as [i I]. exists i. split; [|now apply argmax_first].
  unfold dqn_predict. rewrite vec_single by auto. change (size (oshape s)) with (width s). rewrite reshape_one by auto. cbn [map all_some]. rewrite I. reflexivity.
Qed.
Lemma dqn_batch : forall {O} (q : list O -> list R) s rows, s <> OOther -> (0 < width s)%nat -> observations s rows -> (forall r, In r rows -> q r <> []) ->
  exists l, dqn_predict q s (length rows :: oshape s) (concat rows) = Some (Many l) /\ Forall2 (fun r i => first_best (q r) i) rows l.
Proof.
  intros O q s rows H K Ob N.
  assert (exists l, all_some (map (fun r => argmax rlt (q r)) rows) = Some l /\ Forall2 (fun r i => first_best (q r) i) rows l) as (l & E & F).
  { clear Ob. induction rows as [|r rows IH]; [exists []; split; [reflexivity|constructor]|].
    destruct IH as (l & E & F); [intros; apply N; now right|]. destruct (argmax_exists (q r)) as [i I]; [apply N; now left|].
    exists (i :: l). split; [cbn [map all_some]; now rewrite I, E|]. constructor; auto. now apply argmax_first. }
  exists l. split; auto. unfold dqn_predict. rewrite vec_batch by auto. change (size (oshape s)) with (width s). rewrite reshape_rows by auto. rewrite E. reflexivity.
Qed.

Lemma map_by_index : forall {B} (f : R -> B) l, map f l = map (fun i => f (nth i l 0)) (actions (length l)).
Proof.
  intros B f l. unfold actions. induction l as [|x l IH]; [reflexivity|]. cbn [length seq map nth]. f_equal. rewrite <- seq_shift, map_map. cbn [nth]. exact IH.
Qed.
Lemma softmax_probs : forall l, l <> [] -> softmax l = map (prob l) (actions (length l)).
Proof.
  intros l N. unfold softmax, shifted. rewrite map_map, map_by_index. apply map_ext. intros i. unfold prob. rewrite (zsum_eq l).
  unfold Rminus. rewrite exp_plus. pose proof (z_pos l N). pose proof (exp_pos (- rmax l)). field. split; lra.
Qed.
Lemma softmax_length : forall l, length (softmax l) = length l.
Proof. intros. unfold softmax, shifted. now rewrite !map_length. Qed.
Lemma softmax_nth : forall l i, (i < length l)%nat -> nth i (softmax l) 0 = prob l i.
Proof.
  intros l i I. assert (l <> []) by (destruct l; cbn in I; [lia|discriminate]). rewrite softmax_probs by auto.
  transitivity (nth i (map (prob l) (actions (length l))) (prob l 0)).
  - apply nth_indep. rewrite map_length. unfold actions. now rewrite seq_length.
  - rewrite (map_nth (prob l)). unfold actions. now rewrite seq_nth.
Qed.

Lemma choice_spec : forall p u i, Forall (fun x => 0 < x) p -> 0 <= u < total p ->
  (choice p u = i <-> (i < length p)%nat /\ total (firstn i p) <= u < total (firstn (S i) p)).
Proof.
  induction p as [|x t IH]; intros u i P U; [cbn in U; lra|]. pose proof (Forall_inv P) as X. pose proof (Forall_inv_tail P) as T. cbn [total fold_right] in U. fold (total t) in U.
  cbn [choice]. destruct (Rle_dec x u) as [L|L].
  - destruct i as [|i].
    + split; [discriminate|]. intros [_ [_ H]]. exfalso. cbn in H. lra.
    + assert (U' : 0 <= u - x < total t) by lra. specialize (IH (u - x) i T U'). cbn [firstn length total fold_right]. fold (total (firstn i t)). fold (total (firstn (S i) t)).
      change (fold_right Rplus 0 (match t with [] => [] | a :: l => a :: firstn i l end)) with (total (firstn (S i) t)).
      split.
      * intros E. injection E as E. apply IH in E. destruct E as (A & B & C). split; [lia|]. lra.
      * intros (A & B & C). f_equal. apply IH. split; [lia|]. lra.
  - destruct i as [|i].
    + cbn. split; [intros _; split; [lia|lra]|reflexivity].
    + split; [discriminate|]. intros (_ & B & _). exfalso. cbn [firstn total fold_right] in B.
      assert (0 <= total (firstn i t)).
      { assert (F : Forall (fun y => 0 < y) (firstn i t)). { rewrite Forall_forall in *. intros y Y. apply T. rewrite <- (firstn_skipn i t). apply in_or_app. now left. }
        clear - F. induction F; cbn [total fold_right]; [lra|]. unfold total in *. lra. }
      unfold total in *. lra.
Qed.
Lemma dqn_draw_spec : forall q u i, q <> [] -> 0 <= u < 1 -> (dqn_draw q u = i <-> (i < length q)%nat /\ below q i <= u < below q (S i)).
Proof.
  intros q u i N U. unfold dqn_draw. rewrite softmax_probs by auto.
  assert (P : Forall (fun x => 0 < x) (map (prob q) (actions (length q)))) by (rewrite Forall_map, Forall_forall; intros; now apply prob_pos).
  assert (T : total (map (prob q) (actions (length q))) = 1) by now apply prob_sum.
  rewrite (choice_spec _ u i P) by (rewrite T; exact U). rewrite map_length. unfold actions at 1. rewrite seq_length.
  assert (F : forall j, (j <= length q)%nat -> firstn j (map (prob q) (actions (length q))) = map (prob q) (actions j)).
  { intros j J. rewrite firstn_map. f_equal. unfold actions. replace (length q) with (j + (length q - j))%nat by lia. rewrite seq_app, firstn_app, seq_length, Nat.sub_diag. cbn [firstn].
    rewrite app_nil_r. apply firstn_all2. rewrite seq_length. lia. }
  split; intros (A & B); (split; [exact A|]); unfold below in *; rewrite ?F in * by lia; rewrite ?F by lia; exact B.
Qed.
Lemma below_step : forall q i, below q (S i) - below q i = prob q i.
Proof. intros q i. unfold below, actions. rewrite seq_S, map_app, total_app. cbn. ring. Qed.

Lemma dueling_facts : forall v scores, scores <> [] ->
  avg (dueling v scores) = v /\ length (dueling v scores) = length scores /\
  (forall i j, (i < length scores)%nat -> (j < length scores)%nat -> nth i (dueling v scores) 0 - nth j (dueling v scores) 0 = nth i scores 0 - nth j scores 0) /\
  forall i, first_best (dueling v scores) i <-> first_best scores i.
Proof.
  intros v scores N. assert (L : length (dueling v scores) = length scores) by (unfold dueling; apply map_length).
  assert (P : 0 < INR (length scores)) by (apply lt_0_INR; destruct scores; cbn; [congruence|lia]).
  set (m := rsum scores / INR (length scores)).
  assert (T : forall i, (i < length scores)%nat -> nth i (dueling v scores) 0 = v + (nth i scores 0 - m)).
  { intros i I. unfold dueling. fold m. set (f := fun x => v + (x - m)). transitivity (nth i (map f scores) (f 0)); [apply nth_indep; now rewrite map_length|]. now rewrite (map_nth f). }
  split; [|split; [exact L|split]].
  - unfold avg. change (fold_right Rplus 0 (dueling v scores)) with (total (dueling v scores)). rewrite L. unfold dueling. fold m.
    rewrite (total_ext _ (fun x => (v - m) + x)) by (intros; ring). rewrite (total_plus (fun _ => v - m) (fun x => x)). rewrite total_const, map_id.
    unfold m. rewrite rsum_total. field. lra.
  - intros i j I J. rewrite !T by auto. ring.
  - intros i. unfold first_best. rewrite L. split; intros (A & B & C); (split; [exact A|split]).
    + intros j J. specialize (B j J). rewrite !T in B by auto. lra.
    + intros j J. specialize (C j J). rewrite !T in C by lia. lra.
    + intros j J. rewrite !T by auto. specialize (B j J). lra.
    + intros j J. rewrite !T by lia. specialize (C j J). lra.
Qed.

Lemma step_likelihood : forall logits u a nl, length u = length logits -> step_discrete logits u false = Some (a, nl) -> (a < length logits)%nat /\ exp (- nl) = prob logits a.
Proof.
  intros logits u a nl L H. unfold step_discrete in H. destruct (cat_mode logits) as [m|] eqn:M; [|discriminate]. destruct (cat_sample logits u) as [b|] eqn:S'; [|discriminate].
  injection H as <- <-. assert (N : logits <> []). { intros ->. discriminate. }
  destruct (cat_sample_valid logits u N L) as (i & I & LT). rewrite S' in I. injection I as <-. split; auto. now apply cat_neglogp_final.
Qed.
Lemma step_any : forall logits i, (i < length logits)%nat -> exists u m nl, length u = length logits /\ Forall (fun x => 0 < x < 1) u /\
  step_discrete logits u true = Some (m, nl) /\ first_best logits m /\ exp (- nl) = prob logits i.
Proof.
  intros logits i I. destruct (cat_reachable logits i I) as (u & L & F & C). assert (N : logits <> []) by (destruct logits; cbn in I; [lia|discriminate]).
  destruct (argmax_exists logits N) as [m M]. exists u, m, (cat_neglogp logits (Z.of_nat i)).
  split; [exact L|]. split; [exact F|]. split; [|split].
  - unfold step_discrete, cat_mode. rewrite M, C. reflexivity.
  - now apply argmax_first in M.
  - now apply cat_neglogp_final.
Qed.
