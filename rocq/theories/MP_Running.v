(** C125: running statistics. *)
From Coq Require Import Reals List ZArith Arith Bool Lia Lra Permutation.
From Verif Require Import MP_Model MP_Spec MP_Proofs.
Import ListNotations.
Open Scope R_scope.

Definition sq (l : list R) : list R := map (fun x => x * x) l.
Lemma squares_shaped w arrs : shaped w arrs -> shaped w (map squares arrs).
Proof.
  intros S. apply Forall_map. eapply Forall_impl; [|exact S]. intros a [W F]. split; [exact W|]. cbn. apply Forall_map.
  eapply Forall_impl; [|exact F]. intros r H. cbv beta in *. now rewrite map_length.
Qed.
Lemma squares_column j data : column j (map (map (fun x => x * x)) data) = sq (column j data).
Proof.
  unfold column, sq. rewrite !map_map. apply map_ext. intros row. destruct (Nat.lt_ge_cases j (length row)) as [L|L].
  - rewrite (nth_indep _ 0 (0 * 0)) by (rewrite map_length; exact L). now rewrite (map_nth (fun x => x * x)).
  - rewrite !nth_overflow by (rewrite ?map_length; exact L). lra.
Qed.

Definition bufs (arrs : list array) := map (fun a => total a ++ total (squares a) ++ [INR (length (rows a))]) arrs.
Lemma bufs_length w arrs : shaped w arrs -> Forall (fun v => length v = (w + w + 1)%nat) (bufs arrs).
Proof.
  intros S. apply Forall_map. eapply Forall_impl; [|exact S]. intros a [W F].
  assert (S2 : Forall (fun row => length row = w) (rows (squares a))).
  { cbn. apply Forall_map. eapply Forall_impl; [|exact F]. intros r H. cbv beta in *. now rewrite map_length. }
  rewrite !app_length, !(total_length w) by (auto; cbn; auto). cbn. lia.
Qed.

Lemma update_nth w arrs s : shaped w arrs -> length (rsum s) = w -> length (rsumsq s) = w ->
  length (rsum (update w arrs s)) = w /\ length (rsumsq (update w arrs s)) = w
  /\ rcount (update w arrs s) = rcount s + INR (length (pooled arrs))
  /\ forall j, (j < w)%nat -> nth j (rsum (update w arrs s)) 0 = nth j (rsum s) 0 + sum (column j (pooled arrs))
      /\ nth j (rsumsq (update w arrs s)) 0 = nth j (rsumsq s) 0 + sum (sq (column j (pooled arrs))).
Proof.
  intros S L1 L2. unfold update. cbv zeta. fold (bufs arrs). pose proof (bufs_length w arrs S) as F.
  pose proof (allreduce_length _ _ F) as GL. cbn [rsum rsumsq rcount].
  assert (G : forall j, nth j (allreduce Float (w + w + 1) (bufs arrs)) 0 = sum (column j (bufs arrs))) by (intros; now apply allreduce_nth).
  set (g := allreduce Float (w + w + 1) (bufs arrs)) in *. clearbody g.
  split; [rewrite vadd_length, firstn_length; lia|]. split; [rewrite vadd_length, firstn_length, skipn_length; lia|].
  assert (T : Forall (fun a => length (total a) = w /\ length (total (squares a)) = w) arrs).
  { eapply Forall_impl; [|exact S]. intros a [W H]. split; apply total_length; auto. cbn. apply Forall_map.
    eapply Forall_impl; [|exact H]. intros r K. cbv beta in *. now rewrite map_length. }
  split.
  - f_equal. rewrite G. unfold column, bufs. rewrite map_map. unfold pooled.
    clear - T. induction T as [|a arrs [A B] T IH]; [reflexivity|]. cbn [map concat]. rewrite app_length, plus_INR, <- IH.
    rewrite app_nth2 by lia. rewrite app_nth2 by lia. replace (w + w - length (total a) - length (total (squares a)))%nat with 0%nat by lia. reflexivity.
  - intros j L. rewrite !vadd_nth by (rewrite firstn_length, ?skipn_length; lia). rewrite !nth_firstn_lt, nth_skipn by exact L. rewrite !G.
    split; f_equal.
    + unfold bufs. apply sums_of_columns. unfold shaped in S. rewrite Forall_forall in *. intros a I. destruct (T a I) as [A B]. destruct (S a I) as [W H].
      rewrite app_nth1 by lia. now apply (total_nth w).
    + transitivity (sum (column j (pooled (map squares arrs)))).
      * unfold pooled. rewrite map_map. unfold column at 1, bufs. rewrite map_map. clear - S T L.
        revert S. induction T as [|a arrs [A B] T IH]; intros S; [reflexivity|]. destruct (Forall_inv S) as [W H]. pose proof (Forall_inv_tail S) as S2. cbn [map concat].
        unfold column. rewrite map_app, sum_app. fold (column j (rows (squares a))). unfold column in IH. rewrite <- IH by exact S2.
        rewrite app_nth2 by lia. rewrite A. replace (w + j - w)%nat with j by lia. rewrite app_nth1 by lia.
        rewrite (total_nth w); [reflexivity|exact W|]. cbn. apply Forall_map. eapply Forall_impl; [|exact H]. intros r K. cbv beta in *. now rewrite map_length.
      * f_equal. unfold pooled. rewrite map_map. cbn [squares rows]. rewrite <- squares_column. f_equal. rewrite concat_map, map_map. reflexivity.
Qed.
Lemma updates_nth w : forall us s, Forall (shaped w) us -> length (rsum s) = w -> length (rsumsq s) = w ->
  let e := updates w us s in length (rsum e) = w /\ length (rsumsq e) = w /\ rcount e = rcount s + INR (length (seen us))
  /\ forall j, (j < w)%nat -> nth j (rsum e) 0 = nth j (rsum s) 0 + sum (column j (seen us))
      /\ nth j (rsumsq e) 0 = nth j (rsumsq s) 0 + sum (sq (column j (seen us))).
Proof.
  induction us as [|arrs us IH]; intros s F L1 L2.
  - cbn. repeat split; auto; try lra; intros; unfold sum, seen, sq; cbn; lra.
  - inversion F as [|? ? S F2]; subst. destruct (update_nth _ arrs s S eq_refl L2) as (A & B & C & D).
    change (updates (length (rsum s)) (arrs :: us) s) with (updates (length (rsum s)) us (update (length (rsum s)) arrs s)).
    destruct (IH _ F2 A B) as (A' & B' & C' & D'). cbv zeta. repeat split; auto.
    + rewrite C', C. unfold seen. cbn [map concat]. rewrite app_length, plus_INR. lra.
    + destruct (D' j H) as [-> _]. destruct (D j H) as [-> _]. unfold seen, column. cbn [map concat]. rewrite map_app, sum_app. lra.
    + destruct (D' j H) as [_ ->]. destruct (D j H) as [_ ->]. unfold seen, column, sq. cbn [map concat]. rewrite !map_app, sum_app. lra.
Qed.
Lemma repeat_nth (x : R) w j : (j < w)%nat -> nth j (repeat x w) 0 = x.
Proof. revert j. induction w as [|w IH]; intros j L; [lia|]. destruct j; [reflexivity|]. cbn. apply IH. lia. Qed.

Theorem running_is : forall eps w us, Forall (shaped w) us ->
  let s := updates w us (start eps w) in let n := INR (length (seen us)) in
  length (mean s) = w /\ length (std s) = w
  /\ forall j, (j < w)%nat -> nth j (mean s) 0 = sum (column j (seen us)) / (n + eps)
    /\ nth j (std s) 0 = sqrt (Rmax ((sum (map (fun x => x ^ 2) (column j (seen us))) + eps) / (n + eps)
                                     - (sum (column j (seen us)) / (n + eps)) ^ 2) (1 / 100)).
Proof.
  intros eps w us F s n. destruct (updates_nth w us (start eps w) F (repeat_length _ _) (repeat_length _ _)) as (A & B & C & D).
  fold s in A, B, C, D. unfold mean, std. cbn [start rcount] in C. fold n in C. split; [now rewrite map_length|]. split; [rewrite map_length, combine_length; lia|].
  intros j L. destruct (D j L) as [D1 D2]. cbn [start rsum rsumsq] in D1, D2. rewrite zeros_nth in D1. rewrite repeat_nth in D2 by exact L.
  rewrite Rplus_0_l in D1. split.
  - rewrite (nth_indep _ 0 (0 / rcount s)) by (rewrite map_length; lia). rewrite (map_nth (fun x => x / rcount s)), D1, C. f_equal. lra.
  - set (K := fun p : R * R => sqrt (Rmax (snd p / rcount s - (fst p / rcount s) * (fst p / rcount s)) (1 / 100))).
    rewrite (nth_indep _ 0 (K (0, 0))) by (rewrite map_length, combine_length; lia). rewrite map_nth, combine_nth by lia.
    unfold K. cbn [fst snd]. rewrite D1, D2, C. unfold sq. do 2 f_equal.
    replace (map (fun x => x ^ 2) (column j (seen us))) with (map (fun x => x * x) (column j (seen us))) by (apply map_ext; intros; ring).
    rewrite (Rplus_comm eps n). rewrite (Rplus_comm eps (sum _)). ring.
Qed.

Lemma sum_const_minus l c : sum (map (fun x => (x - c) ^ 2) l) = sum (map (fun x => x ^ 2) l) - 2 * c * sum l + INR (length l) * c ^ 2.
Proof.
  induction l as [|x l IH]; [unfold sum; cbn; lra|]. cbn [map length]. rewrite S_INR. unfold sum in *. cbn [fold_right]. rewrite IH. ring.
Qed.
Lemma variance l : l <> [] -> average (map (fun x => (x - average l) ^ 2) l) = sum (map (fun x => x ^ 2) l) / INR (length l) - average l ^ 2.
Proof.
  intros NE. assert (N : 0 < INR (length l)) by (apply lt_0_INR; destruct l; [congruence|cbn; lia]).
  unfold average at 1. rewrite map_length, sum_const_minus. unfold average. field. lra.
Qed.
Lemma sqrt_max a b : 0 <= a -> 0 <= b -> sqrt (Rmax a b) = Rmax (sqrt a) (sqrt b).
Proof.
  intros A B. unfold Rmax. destruct (Rle_dec a b) as [L|L]; destruct (Rle_dec (sqrt a) (sqrt b)) as [M|M]; try reflexivity.
  - exfalso. apply M. now apply sqrt_le_1.
  - apply Rle_antisym; [exact M|]. apply sqrt_le_1; lra.
Qed.
Lemma average_nonneg l : Forall (fun x => 0 <= x) l -> 0 <= average l.
Proof.
  intros F. unfold average. destruct l as [|x l]; [unfold sum, Rdiv; cbn; lra|]. apply Rmult_le_pos.
  - unfold sum. induction F as [|y k H F IH]; cbn; lra.
  - left. apply Rinv_0_lt_compat, lt_0_INR. cbn. lia.
Qed.
Theorem running_exact : forall w us, Forall (shaped w) us -> seen us <> [] ->
  let s := updates w us (start 0 w) in length (mean s) = w /\ length (std s) = w
  /\ forall j, (j < w)%nat -> nth j (mean s) 0 = average (column j (seen us)) /\ nth j (std s) 0 = Rmax (deviation (column j (seen us))) (1 / 10).
Proof.
  intros w us F NE s. destruct (running_is 0 w us F) as (A & B & D). fold s in A, B, D. repeat split; auto.
  - destruct (D j H) as [-> _]. unfold average. rewrite length_col, Rplus_0_r. reflexivity.
  - destruct (D j H) as [_ ->]. rewrite !Rplus_0_r. assert (NC : column j (seen us) <> []) by (unfold column; destruct (seen us); [congruence|discriminate]).
    rewrite <- (length_col j (seen us)). set (l := column j (seen us)) in *. fold (average l). rewrite <- variance by exact NC. rewrite sqrt_max.
    + unfold deviation. f_equal. replace (1 / 100) with ((1 / 10) * (1 / 10)) by lra. rewrite sqrt_square by lra. reflexivity.
    + apply average_nonneg. apply Forall_map, Forall_forall. intros x _. apply pow2_ge_0.
    + lra.
Qed.
Theorem running_bias : forall eps w us, 0 <= eps -> Forall (shaped w) us -> seen us <> [] ->
  forall j, (j < w)%nat -> average (column j (seen us)) - nth j (mean (updates w us (start eps w))) 0
    = average (column j (seen us)) * (eps / (INR (length (seen us)) + eps)).
Proof.
  intros eps w us E F NE j L. destruct (running_is eps w us F) as (_ & _ & D). destruct (D j L) as [-> _].
  assert (N : 0 < INR (length (seen us))) by (apply lt_0_INR; destruct (seen us); [congruence|cbn; lia]).
  unfold average. rewrite length_col. field. lra.
Qed.
Theorem running_order : forall eps w us us', Forall (shaped w) us -> Forall (shaped w) us' -> Permutation (seen us) (seen us') ->
  mean (updates w us (start eps w)) = mean (updates w us' (start eps w)) /\ std (updates w us (start eps w)) = std (updates w us' (start eps w)).
Proof.
  intros eps w us us' F F' P. destruct (running_is eps w us F) as (A & B & D). destruct (running_is eps w us' F') as (A' & B' & D').
  split; apply (nth_eq_list _ _ w); auto; intros j L; destruct (D j L) as [D1 D2]; destruct (D' j L) as [D1' D2'].
  - rewrite D1, D1'. rewrite (sum_perm _ _ (column_perm j _ _ P)), (Permutation_length P). reflexivity.
  - rewrite D2, D2'. rewrite (sum_perm _ _ (column_perm j _ _ P)), (Permutation_length P).
    rewrite (sum_perm _ _ (Permutation_map (fun x => x ^ 2) (column_perm j _ _ P))). reflexivity.
Qed.
Lemma sum_repeat x n : sum (repeat x n) = INR n * x.
Proof. unfold sum. induction n as [|n IH]; [cbn; lra|]. rewrite S_INR. cbn [repeat fold_right]. rewrite IH. lra. Qed.
Theorem floor_wrong : forall x n, (0 < n)%nat -> exists us, Forall (shaped 1) us /\ column 0 (seen us) = repeat x n
  /\ deviation (repeat x n) = 0 /\ std (updates 1 us (start 0 1)) = [1 / 10].
Proof.
  intros x n N. exists [[Array 1 (repeat [x] n)]].
  assert (SE : seen [[Array 1 (repeat [x] n)]] = repeat [x] n) by (unfold seen, pooled; cbn; now rewrite !app_nil_r).
  assert (F : Forall (shaped 1) [[Array 1 (repeat [x] n)]]).
  { constructor; [|constructor]. constructor; [|constructor]. split; [reflexivity|]. cbn. apply Forall_forall. intros r I. apply repeat_spec in I. now subst. }
  assert (CO : column 0 (seen [[Array 1 (repeat [x] n)]]) = repeat x n).
  { rewrite SE. unfold column. clear. induction n as [|n IH]; [reflexivity|]. cbn. now rewrite IH. }
  assert (DV : deviation (repeat x n) = 0).
  { unfold deviation. assert (AV : average (repeat x n) = x).
    { unfold average. rewrite sum_repeat, repeat_length. field. apply not_0_INR. lia. }
    rewrite AV. replace (map _ (repeat x n)) with (repeat 0 n).
    - unfold average. rewrite sum_repeat. rewrite Rmult_0_r. unfold Rdiv. rewrite Rmult_0_l. apply sqrt_0.
    - clear. induction n as [|n IH]; [reflexivity|]. cbn [repeat map]. rewrite <- IH. f_equal. ring. }
  split; [exact F|]. split; [exact CO|]. split; [exact DV|].
  assert (NE : seen [[Array 1 (repeat [x] n)]] <> []) by (rewrite SE; destruct n; [lia|discriminate]).
  destruct (running_exact 1 _ F NE) as (_ & B & D). destruct (D 0%nat) as [_ D2]; [lia|]. rewrite CO, DV in D2.
  destruct (std _) as [|y [|z l]]; try discriminate. cbn in D2. rewrite D2. f_equal. apply Rmax_right. lra.
Qed.
