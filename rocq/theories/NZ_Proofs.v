(** Lemmas for C127. *)
From Coq Require Import Reals List Arith Bool Lia Lra.
From Verif Require Import NZ_Model NZ_Spec.
Import ListNotations.
Open Scope R_scope.

Lemma walk_snoc th d m s x0 zs z : walk th d m s x0 (zs ++ [z]) = component th d (walk th d m s x0 zs, m, s, z).
Proof.
  unfold walk, component. cbv zeta. set (r := 1 - th * d). rewrite app_length, Nat.add_1_r, rev_app_distr. cbn [rev app seq combine map].
  assert (E : forall l k, sum (map (fun p : nat * R => r ^ fst p * snd p) (combine (seq (S k) (length l)) l))
    = r * sum (map (fun p : nat * R => r ^ fst p * snd p) (combine (seq k (length l)) l))).
  { unfold sum. induction l as [|x l IH]; intros k; [cbn; lra|]. cbn [length seq combine map fold_right fst snd]. rewrite IH. cbn [pow]. ring. }
  change (sum (?x :: ?l)) with (x + sum l). cbn [fst snd pow]. rewrite <- (rev_length zs). rewrite E.
  set (S1 := sum _). set (P := r ^ _). clearbody S1 P. unfold r. ring.
Qed.
Lemma walk_nil th d m s x0 : walk th d m s x0 [] = x0.
Proof. unfold walk, sum. cbn. ring. Qed.

Lemma nth_map2 {A B C} (f : A * B -> C) : forall a b i dc da db, (i < length a)%nat -> (i < length b)%nat ->
  nth i (map f (combine a b)) dc = f (nth i a da, nth i b db).
Proof.
  induction a as [|x a IH]; intros [|y b] i dc da db L1 L2; cbn in L1, L2; try lia. destruct i as [|i]; [reflexivity|]. cbn. apply IH; lia.
Qed.
Lemma put_same h a v : put h a v a = v.
Proof. unfold put. now rewrite Nat.eqb_refl. Qed.
Lemma put_other h a v b : b <> a -> put h a v b = h b.
Proof. intros H. unfold put. destruct (Nat.eqb_spec b a); [contradiction|reflexivity]. Qed.

Section Run.
Variables (o : ou) (ms : list R) (x0 : list R).
Hypothesis Hmu : mu o = Vector ms.
Hypothesis Hsigma : length (sigma o) = length ms.
Hypothesis Hx0 : length x0 = length ms.
(** The state: the noise is the walk of the draws so far, and the initial noise is what it was. *)
Definition holds (zs : list (list R)) (w : world) : Prop :=
  length (noise w) = length ms /\ (prev w < next w)%nat
  /\ match initial_noise o with Some a => (a < next w)%nat /\ heap w a = x0 | None => x0 = repeat 0 (length ms) end
  /\ forall j, (j < length ms)%nat ->
    nth j (noise w) 0 = walk (theta o) (dt o) (nth j ms 0) (nth j (sigma o) 0) (nth j x0 0) (component_of j zs).
Lemma holds_reset w : match initial_noise o with Some a => (a < next w)%nat /\ heap w a = x0 | None => x0 = repeat 0 (length ms) end -> holds [] (reset o w).
Proof using Hmu Hx0.
  intros H. unfold holds, reset, noise. destruct (initial_noise o) as [a|] eqn:I; cbn [heap next prev].
  - destruct H as [L E]. rewrite E. repeat split; auto. intros j J. cbn. now rewrite walk_nil.
  - rewrite put_same, Hmu. cbn [zeros_like]. rewrite repeat_length. repeat split; auto. intros j J. cbn [component_of map]. rewrite walk_nil. now rewrite H.
Qed.
Lemma holds_run : forall ps zs w, draws (length ms) ps -> holds zs w -> careful o ps w -> exists w', run o ps w = Some w' /\ holds (since ps zs) w'.
Proof using Hmu Hsigma Hx0.
  induction ps as [|p ps IH]; intros zs w D H C; [now exists w|]. inversion D as [|? ? D1 D2]; subst. destruct C as [C1 C2]. cbn [run].
  destruct p as [z| |a v].
  - cbn [exec] in *. unfold call in *. rewrite Hmu in *. destruct H as (L & PN & I & W). eapply IH; [exact D2| |apply C2; reflexivity].
    assert (LC : length (combine (combine (combine (heap w (prev w)) ms) (sigma o)) z) = length ms).
    { rewrite !combine_length. unfold noise in L. lia. }
    unfold holds, noise. cbn [heap next prev]. rewrite put_same. split; [now rewrite map_length|]. split; [lia|]. split.
    + destruct (initial_noise o) as [b|]; [|exact I]. destruct I as [LB E]. split; [lia|]. rewrite put_other by lia. exact E.
    + intros j J. unfold noise in *. rewrite (nth_map2 _ _ _ _ _ (0, 0, 0) 0) by (rewrite ?combine_length; lia).
      rewrite (combine_nth _ _ _ (0, 0) 0) by (rewrite ?combine_length; lia). rewrite (combine_nth _ _ _ 0 0) by lia.
      rewrite W by exact J. unfold component_of. rewrite map_app. cbn [map]. now rewrite walk_snoc.
  - cbn [exec] in *. destruct H as (L & PN & I & W). eapply IH; [exact D2|apply holds_reset; exact I|apply C2; reflexivity].
  - cbn [exec] in *. destruct C1 as (NP & NI & LA). destruct H as (L & PN & I & W). eapply IH; [exact D2| |apply C2; reflexivity].
    unfold holds, noise in *. cbn [heap next prev]. rewrite put_other by congruence. repeat split; auto.
    destruct (initial_noise o) as [b|]; [|exact I]. destruct I as [LB E]. split; [exact LB|]. rewrite put_other; [exact E|congruence].
Qed.
End Run.

Theorem walks : forall o ms h n ps, mu o = Vector ms -> length (sigma o) = length ms -> draws (length ms) ps ->
  (forall a, initial_noise o = Some a -> (a < n)%nat /\ length (h a) = length ms) ->
  careful o ps (construct o h n) ->
  exists w, run o ps (construct o h n) = Some w /\ length (noise w) = length ms
    /\ forall j, (j < length ms)%nat -> nth j (noise w) 0
        = walk (theta o) (dt o) (nth j ms 0) (nth j (sigma o) 0) (nth j (origin o h (length ms)) 0) (component_of j (since ps [])).
Proof.
  intros o ms h n ps Hmu Hs D I C. assert (L : length (origin o h (length ms)) = length ms).
  { unfold origin. destruct (initial_noise o) as [a|] eqn:E; [now apply I|apply repeat_length]. }
  destruct (holds_run o ms (origin o h (length ms)) Hmu Hs L ps [] (construct o h n) D) as (w & E & H).
  - unfold construct. apply holds_reset; auto. unfold origin. destruct (initial_noise o) as [a|] eqn:E; [|reflexivity]. cbn. split; [now apply I|reflexivity].
  - exact C.
  - exists w. split; [exact E|]. destruct H as (A & _ & _ & B). split; [exact A|]. intros j J. exact (B j J).
Qed.
Theorem float_raises : forall o x z w, mu o = Scalar x -> call o z w = None.
Proof. intros o x z w H. unfold call. now rewrite H. Qed.

(** In place changes. *)
Definition example : ou := OU (Vector [0]) [1] (1 / 2) 1 None.
Definition example2 : ou := OU (Vector [0]) [1] (1 / 2) 1 (Some 0%nat).
Theorem returned_shared : exists o w w' a z, (run o [Call z] (construct o (fun _ => []) 0) = Some w) /\ prev w = a
  /\ run o [Call z; Write a [100]] (construct o (fun _ => []) 0) = Some w'
  /\ (exists u, run o [Call [0]] w = Some u /\ noise u = [1 / 2]) /\ exists u, run o [Call [0]] w' = Some u /\ noise u = [50].
Proof.
  exists example. eexists. eexists. exists 1%nat, [1]. split; [reflexivity|]. split; [reflexivity|]. split; [reflexivity|].
  split; (eexists; split; [reflexivity|]); unfold noise, put, component; cbn; f_equal; rewrite sqrt_1; lra.
Qed.
Theorem initial_shared : exists o h w w', initial_noise o = Some 0%nat /\ h 0%nat = [7]
  /\ run o [Reset] (construct o h 1) = Some w /\ noise w = [7]
  /\ run o [Write (prev (construct o h 1)) [100]; Call [0]; Reset] (construct o h 1) = Some w' /\ noise w' = [100].
Proof. exists example2, (fun _ => [7]). eexists. eexists. repeat split. Qed.

(** How far it goes. *)
Lemma geometric_bound r (zs : list R) B : 0 <= r < 1 -> 0 <= B -> Forall (fun z => Rabs z <= B) zs ->
  forall q, Rabs q <= r -> Rabs (sum (map (fun p => q ^ fst p * snd p) (combine (seq 0 (length zs)) zs))) <= B / (1 - r).
Proof.
  intros R HB F q Q.
  assert (G : forall k, Rabs (sum (map (fun p => q ^ fst p * snd p) (combine (seq k (length zs)) zs))) <= r ^ k * (B / (1 - r))).
  { assert (BR : 0 <= B / (1 - r)) by (apply Rmult_le_pos; [exact HB|left; apply Rinv_0_lt_compat; lra]).
    induction F as [|z zs H F IH]; intros k.
    - cbn. rewrite Rabs_R0. apply Rmult_le_pos; [apply pow_le; lra|exact BR].
    - cbn [length seq combine map]. change (sum (?x :: ?l)) with (x + sum l). cbn [fst snd]. eapply Rle_trans; [apply Rabs_triang|].
      specialize (IH (S k)). cbn [pow] in IH. rewrite Rabs_mult, <- RPow_abs.
      assert (P : Rabs q ^ k <= r ^ k) by (apply pow_incr; split; [apply Rabs_pos|exact Q]).
      pose proof (Rabs_pos z) as Z0. assert (RK : 0 <= r ^ k) by (apply pow_le; lra). assert (QK : 0 <= Rabs q ^ k) by (apply pow_le, Rabs_pos).
      assert (X : Rabs q ^ k * Rabs z <= r ^ k * B) by (apply Rmult_le_compat; assumption).
      assert (Y : r ^ k * B + r * r ^ k * (B / (1 - r)) = r ^ k * (B / (1 - r))) by (field; lra). lra. }
  specialize (G 0%nat). cbn [pow] in G. lra.
Qed.
Theorem walk_bounded : forall th d m s x0 zs B r, Rabs (1 - th * d) <= r < 1 -> 0 <= B -> Forall (fun z => Rabs z <= B) zs ->
  Rabs (walk th d m s x0 zs - m) <= r ^ length zs * Rabs (x0 - m) + Rabs s * sqrt d * (B / (1 - r)).
Proof.
  intros th d m s x0 zs B r [Q R] HB F. unfold walk. cbv zeta. set (q := 1 - th * d) in *. pose proof (Rabs_pos q) as QP.
  assert (FR : Forall (fun z => Rabs z <= B) (rev zs)) by (rewrite Forall_forall in *; intros x I; apply F; now apply in_rev).
  pose proof (geometric_bound r (rev zs) B ltac:(lra) HB FR q Q) as G. rewrite rev_length in G.
  set (T := sum _) in *. clearbody T. replace (m + q ^ length zs * (x0 - m) + s * sqrt d * T - m) with (q ^ length zs * (x0 - m) + s * sqrt d * T) by ring.
  eapply Rle_trans; [apply Rabs_triang|]. rewrite !Rabs_mult. rewrite <- RPow_abs. pose proof (sqrt_pos d) as SD. rewrite (Rabs_right (sqrt d)) by lra.
  apply Rplus_le_compat.
  - apply Rmult_le_compat_r; [apply Rabs_pos|]. apply pow_incr. lra.
  - apply Rmult_le_compat_l; [|exact G]. apply Rmult_le_pos; [apply Rabs_pos|exact SD].
Qed.
Lemma walk_zero th d m s x0 k : walk th d m s x0 (repeat 0 k) = m + (1 - th * d) ^ k * (x0 - m).
Proof.
  unfold walk. cbv zeta. rewrite repeat_length. assert (E : forall l i, Forall (fun z => z = 0) l ->
    sum (map (fun p : nat * R => (1 - th * d) ^ fst p * snd p) (combine (seq i (length l)) l)) = 0).
  { induction l as [|x l IH]; intros i F; [reflexivity|]. inversion F; subst. cbn [length seq combine map].
    change (sum (?x :: ?l)) with (x + sum l). rewrite IH by assumption. cbn [fst snd]. ring. }
  specialize (E (rev (repeat 0 k)) 0%nat). rewrite rev_length, repeat_length in E. rewrite E; [ring|].
  apply Forall_forall. intros x I. apply in_rev in I. now apply repeat_spec in I.
Qed.
Theorem walk_unstable : forall th d m s x0, 2 < th * d -> x0 <> m -> forall M, exists k, M < Rabs (walk th d m s x0 (repeat 0 k) - m).
Proof.
  intros th d m s x0 T X M. assert (D : 0 < Rabs (x0 - m)) by (apply Rabs_pos_lt; lra).
  assert (Q : Rabs (1 - th * d) > 1) by (rewrite Rabs_left by lra; lra).
  destruct (Pow_x_infinity (1 - th * d) Q ((M + 1) / Rabs (x0 - m))) as [k K]. specialize (K k (le_n _)). exists k. rewrite walk_zero.
  replace (m + (1 - th * d) ^ k * (x0 - m) - m) with ((1 - th * d) ^ k * (x0 - m)) by ring. rewrite Rabs_mult.
  apply Rge_le in K. apply (Rmult_le_compat_r (Rabs (x0 - m))) in K; [|lra]. unfold Rdiv in K. rewrite Rmult_assoc, Rinv_l in K by lra. lra.
Qed.

(** Adaptive noise. *)
Theorem adapted : forall i d c ds, c <> 0 ->
  current (adapts (make_spec i d c) ds) = i * c ^ count (fun x => negb (above d x)) ds / c ^ count (above d) ds.
Proof.
  intros i d c ds C. assert (G : forall ds s, desired s = d -> coefficient s = c ->
    current (adapts s ds) = current s * c ^ count (fun x => negb (above d x)) ds / c ^ count (above d) ds).
  { clear ds. induction ds as [|x ds IH]; intros s D E; [cbn; field|]. change (adapts s (x :: ds)) with (adapts (adapt s x) ds).
    unfold adapt. rewrite D, E. unfold count, above in *. cbn [filter]. destruct (Rlt_dec d x) as [L|L]; cbn [negb length].
    - rewrite IH by reflexivity. cbn [current pow]. field. split; [apply pow_nonzero; exact C|exact C].
    - rewrite IH by reflexivity. cbn [current pow]. field. apply pow_nonzero; exact C. }
  rewrite G by reflexivity. reflexivity.
Qed.
Lemma adapt_consts s x : desired (adapt s x) = desired s /\ coefficient (adapt s x) = coefficient s.
Proof. unfold adapt. destruct (Rlt_dec _ _); split; reflexivity. Qed.
Section Loop.
Variables (f : R -> R) (d c t : R).
Hypothesis Hc : 1 < c.
Hypothesis Ht : 0 < t.
Hypothesis Hf : forall x, 0 < x -> (d < f x <-> t < x).
Definition band (x : R) : Prop := t / c < x <= t * c.
Lemma inv_c : 0 < / c < 1.
Proof using Hc. split; [apply Rinv_0_lt_compat; lra|]. rewrite <- Rinv_1. apply Rinv_lt_contravar; lra. Qed.
Lemma div_c x : x / c * c = x.
Proof using Hc. field. lra. Qed.
Lemma adapt_above s : desired s = d -> coefficient s = c -> 0 < current s -> t < current s -> current (adapt s (f (current s))) = current s / c.
Proof using Hf. intros D C P H. unfold adapt. rewrite D, C. destruct (Rlt_dec d (f (current s))) as [L|L]; [reflexivity|]. exfalso. apply L. now apply Hf. Qed.
Lemma adapt_below s : desired s = d -> coefficient s = c -> 0 < current s -> current s <= t -> current (adapt s (f (current s))) = current s * c.
Proof using Hf. intros D C P H. unfold adapt. rewrite D, C. destruct (Rlt_dec d (f (current s))) as [L|L]; [|reflexivity]. exfalso. apply Hf in L; lra. Qed.
Lemma band_step s : desired s = d -> coefficient s = c -> band (current s) -> band (current (adapt s (f (current s)))).
Proof using Hc Ht Hf.
  intros D C [B1 B2]. pose proof inv_c as [I1 I2]. assert (TC : 0 < t / c) by (unfold Rdiv; nra).
  destruct (Rle_lt_dec (current s) t) as [L|L].
  - rewrite adapt_below by (auto; lra). split; [|nra]. apply (Rmult_lt_compat_r c) in B1; [|lra]. rewrite div_c in B1. unfold Rdiv in *. nra.
  - rewrite adapt_above by (auto; lra). unfold band, Rdiv in *. split; nra.
Qed.
Lemma band_stays : forall k s, desired s = d -> coefficient s = c -> band (current s) -> band (current (loop f k s)).
Proof using Hc Ht Hf.
  induction k as [|k IH]; intros s D C B; [exact B|]. cbn. destruct (adapt_consts s (f (current s))) as [E1 E2].
  apply IH; [congruence|congruence|now apply band_step].
Qed.
Lemma from_above : forall N s, desired s = d -> coefficient s = c -> t / c < current s -> current s <= t * c * c ^ N -> exists k, band (current (loop f k s)).
Proof using Hc Ht Hf.
  pose proof inv_c as [I1 I2]. assert (TC : 0 < t / c) by (unfold Rdiv; nra). induction N as [|N IH]; intros s D C L U.
  - exists 0%nat. split; [exact L|]. cbn in U |- *. lra.
  - destruct (Rle_lt_dec (current s) (t * c)) as [B|B]; [exists 0%nat; now split|].
    destruct (adapt_consts s (f (current s))) as [E1 E2]. assert (T : t < current s) by nra.
    destruct (IH (adapt s (f (current s)))) as (k & K); try congruence.
    + rewrite adapt_above by (auto; lra). unfold Rdiv. nra.
    + rewrite adapt_above by (auto; lra). apply (Rmult_le_reg_r c); [lra|]. rewrite div_c. cbn [pow] in U. lra.
    + now exists (S k).
Qed.
Lemma from_below : forall N s, desired s = d -> coefficient s = c -> 0 < current s -> current s <= t * c -> t < current s * (c * c ^ N) -> exists k, band (current (loop f k s)).
Proof using Hc Ht Hf.
  pose proof inv_c as [I1 I2]. induction N as [|N IH]; intros s D C P U L.
  - exists 0%nat. split; [|exact U]. cbn in L |- *. apply (Rmult_lt_reg_r c); [lra|]. rewrite div_c. lra.
  - destruct (Rlt_le_dec (t / c) (current s)) as [B|B]; [exists 0%nat; now split|].
    destruct (adapt_consts s (f (current s))) as [E1 E2]. assert (T : current s <= t) by (unfold Rdiv in B; nra).
    destruct (IH (adapt s (f (current s)))) as (k & K); try congruence.
    + rewrite adapt_below by (auto; lra). nra.
    + rewrite adapt_below by (auto; lra). nra.
    + rewrite adapt_below by (auto; lra). cbn [pow] in L. lra.
    + now exists (S k).
Qed.
End Loop.
Lemma loop_plus f : forall a b s, loop f (a + b) s = loop f b (loop f a s).
Proof. induction a as [|a IH]; intros b s; [reflexivity|]. cbn. apply IH. Qed.
Lemma loop_consts f : forall k s, desired (loop f k s) = desired s /\ coefficient (loop f k s) = coefficient s.
Proof.
  induction k as [|k IH]; intros s; [split; reflexivity|]. cbn. destruct (adapt_consts s (f (current s))) as [A B], (IH (adapt s (f (current s)))) as [C D].
  split; congruence.
Qed.
Theorem settles : forall f i d c t, 1 < c -> 0 < t -> 0 < i -> (forall x, 0 < x -> (d < f x <-> t < x)) ->
  exists k0, forall k, (k0 <= k)%nat -> t / c < current (loop f k (make_spec i d c)) <= t * c.
Proof.
  intros f i d c t C T I F. assert (K : exists k0, band c t (current (loop f k0 (make_spec i d c)))).
  { assert (A : Rabs c > 1) by (rewrite Rabs_right; lra). destruct (Rlt_le_dec (t / c) i) as [H|H].
    - destruct (Pow_x_infinity c A (i / t)) as [N P]. specialize (P N (le_n _)). rewrite Rabs_right in P by (left; apply pow_lt; lra).
      apply (from_above f d c t C T F N); auto. cbn. apply Rge_le in P. apply (Rmult_le_compat_r t) in P; [|lra]. unfold Rdiv in P.
      rewrite Rmult_assoc, Rinv_l in P by lra. assert (0 < c ^ N) by (apply pow_lt; lra). nra.
    - destruct (Pow_x_infinity c A (t / i)) as [N P]. specialize (P N (le_n _)). rewrite Rabs_right in P by (left; apply pow_lt; lra).
      pose proof (inv_c c C) as [I1 I2]. apply (from_below f d c t C T F N); auto; cbn.
      + unfold Rdiv in H. nra.
      + apply Rge_le in P. apply (Rmult_le_compat_r i) in P; [|lra]. unfold Rdiv in P. rewrite Rmult_assoc, Rinv_l in P by lra.
        assert (0 < c ^ N) by (apply pow_lt; lra). assert (0 < i * c ^ N) by nra. nra. }
  destruct K as [k0 K]. exists k0. intros k L. replace k with (k0 + (k - k0))%nat by lia. rewrite loop_plus.
  destruct (loop_consts f k0 (make_spec i d c)) as [E1 E2]. now apply (band_stays f d c t C T F).
Qed.
Theorem small_coefficient : forall f i d c t, 0 < c < 1 -> 0 < t < i -> (forall x, 0 < x -> (d < f x <-> t < x)) ->
  forall k, current (loop f k (make_spec i d c)) = i / c ^ k.
Proof.
  intros f i d c t C T F k. assert (G : forall k s, desired s = d -> coefficient s = c -> t < current s -> current (loop f k s) = current s / c ^ k).
  { clear k. induction k as [|k IH]; intros s D E H; [cbn; field|]. cbn [loop]. destruct (adapt_consts s (f (current s))) as [E1 E2].
    assert (A : current (adapt s (f (current s))) = current s / c).
    { unfold adapt. rewrite D, E. destruct (Rlt_dec d (f (current s))) as [L|L]; [reflexivity|]. exfalso. apply L. apply F; lra. }
    rewrite IH; [|congruence|congruence|].
    - rewrite A. cbn [pow]. field. split; [apply pow_nonzero|]; lra.
    - rewrite A. apply (Rmult_lt_reg_r c); [lra|]. unfold Rdiv. rewrite Rmult_assoc, Rinv_l by lra. nra. }
  rewrite G by (cbn; auto; lra). reflexivity.
Qed.
