(** Gaussian distributions with independent coordinates. *)
From Coq Require Import List Arith ZArith Reals Lra Lia.
From Verif Require Import PD_Model PD_Spec PD_Proofs.
Import ListNotations.
Open Scope R_scope.

Lemma halves_app : forall ms ss, length ss = length ms -> halves (ms ++ ss) = Some (ms, ss).
Proof.
  intros ms ss L. unfold halves. rewrite app_length, L. replace (length ms + length ms)%nat with (2 * length ms)%nat by lia.
  rewrite Nat.even_mul. cbn [Nat.even orb]. rewrite Nat.mul_comm, Nat.div_mul by lia.
  rewrite firstn_app, firstn_all, Nat.sub_diag, skipn_app, skipn_all, Nat.sub_diag. cbn. rewrite app_nil_r. reflexivity.
Qed.
Lemma map3_nth : forall {D} (f : R -> R -> R -> D) a b c, length b = length a -> length c = length a ->
  map3 f a b c = map (fun j => f (nth j a 0) (nth j b 0) (nth j c 0)) (actions (length a)).
Proof.
  intros D f. unfold map3, actions. induction a; intros b c L1 L2; destruct b, c; try discriminate; [reflexivity|].
  cbn [combine map length seq nth fst snd]. f_equal. rewrite <- seq_shift, map_map. cbn [nth]. apply IHa; cbn in *; lia.
Qed.
Definition nl (ms ss x : list R) : R :=
  5 / 10 * total (map (fun j => sq ((nth j x 0 - nth j ms 0) / exp (nth j ss 0))) (actions (length ms))) + 5 / 10 * ln (2 * PI) * INR (length ms) + total ss.
Lemma gauss_neglogp_eq : forall ms ss x, length ss = length ms -> length x = length ms -> gauss_neglogp (ms ++ ss) x = Some (nl ms ss x).
Proof.
  intros ms ss x L1 L2. unfold gauss_neglogp. rewrite halves_app by exact L1. cbn [bind fst snd]. unfold nl. rewrite map3_nth by congruence. rewrite L2. reflexivity.
Qed.
Lemma two_pi : 0 < 2 * PI.
Proof. pose proof PI_RGT_0. lra. Qed.
Lemma normal_ln : forall m s x, normal m (exp s) x = exp (- (5 / 10 * sq ((x - m) / exp s) + 5 / 10 * ln (2 * PI) + s)).
Proof.
  intros m s x. pose proof (exp_pos s) as E. pose proof two_pi as T. unfold normal, sq.
  rewrite !Ropp_plus_distr, !exp_plus.
  assert (A : exp (- (5 / 10 * ln (2 * PI))) = / sqrt (2 * PI)).
  { rewrite exp_Ropp. f_equal. rewrite <- (exp_ln (sqrt (2 * PI))) by (apply sqrt_lt_R0; exact T). f_equal.
    assert (ln (2 * PI) = 2 * ln (sqrt (2 * PI))); [|lra]. rewrite <- (sqrt_sqrt (2 * PI)) at 1 by lra. rewrite ln_mult by (apply sqrt_lt_R0; exact T). ring. }
  rewrite A, (exp_Ropp s).
  replace (- (5 / 10 * ((x - m) / exp s * ((x - m) / exp s)))) with (- ((x - m) * (x - m)) / (2 * (exp s * exp s))) by (field; lra).
  assert (0 < sqrt (2 * PI)) by (apply sqrt_lt_R0; exact T). field. lra.
Qed.
Lemma gauss_density : forall ms ss x, length ss = length ms -> length x = length ms ->
  exists v, gauss_neglogp (ms ++ ss) x = Some v /\ exp (- v) = density ms (map exp ss) x.
Proof.
  intros ms ss x L1 L2. rewrite gauss_neglogp_eq by assumption. eexists. split; [reflexivity|]. unfold nl, density, actions.
  revert ss x L1 L2. induction ms; intros ss x L1 L2; destruct ss, x; try discriminate.
  - cbn. rewrite <- exp_0. f_equal. ring.
  - cbn [combine map product fold_right fst snd length]. rewrite normal_ln. unfold product in IHms. rewrite <- IHms by (cbn in *; lia). rewrite <- exp_plus. f_equal.
    cbn [seq map total fold_right nth]. rewrite <- seq_shift, map_map. cbn [nth]. rewrite S_INR. unfold total. ring.
Qed.

(** ** Divergence *)
Definition kterm (ms ss ms' ss' : list R) (j : nat) : R :=
  nth j ss' 0 - nth j ss 0 + (sq (exp (nth j ss 0)) + sq (nth j ms 0 - nth j ms' 0)) / (2 * sq (exp (nth j ss' 0))) - 5 / 10.
Lemma gauss_kl_eq : forall ms ss ms' ss', length ss = length ms -> length ms' = length ms -> length ss' = length ms ->
  gauss_kl (ms ++ ss) (ms' ++ ss') = Some (total (map (kterm ms ss ms' ss') (actions (length ms)))).
Proof.
  intros ms ss ms' ss' L1 L2 L3. unfold gauss_kl. rewrite halves_app by exact L1. rewrite halves_app by congruence. cbn [bind fst snd]. f_equal.
  unfold map3, kterm, rsum, actions. revert ss ms' ss' L1 L2 L3. induction ms; intros ss ms' ss' L1 L2 L3; destruct ss, ms', ss'; try discriminate; [reflexivity|].
  cbn [combine map length seq nth fst snd total fold_right]. rewrite <- seq_shift, map_map. cbn [nth]. f_equal. apply IHms; cbn in *; lia.
Qed.
Lemma kterm_facts : forall s s' d, let t := s' - s + (sq (exp s) + sq d) / (2 * sq (exp s')) - 5 / 10 in 0 <= t /\ (t = 0 <-> s = s' /\ d = 0).
Proof.
  intros s s' d t. pose proof (exp_pos s) as E. pose proof (exp_pos s') as E'. set (r := exp (2 * (s - s'))).
  assert (Hr : r = sq (exp s) / sq (exp s')).
  { unfold r, sq. replace (2 * (s - s')) with (s + s + (- s' + - s')) by ring. rewrite !exp_plus, !exp_Ropp. field. lra. }
  assert (P : 0 < r) by apply exp_pos. assert (LR : ln r = 2 * (s - s')) by apply ln_exp.
  assert (Q : 0 <= sq d / (2 * sq (exp s'))).
  { apply Rmult_le_pos; [unfold sq; apply Rle_0_sqr|]. apply Rlt_le, Rinv_0_lt_compat. unfold sq. assert (0 < exp s' * exp s') by (apply Rmult_lt_0_compat; assumption). lra. }
  assert (T : t = 5 / 10 * (r - 1 - ln r) + sq d / (2 * sq (exp s'))).
  { unfold t. rewrite LR, Hr. unfold sq. field. lra. }
  pose proof (ln_below r P) as B. split; [lra|]. split.
  - intros Z. assert (ln r = r - 1) by lra. assert (D0 : sq d / (2 * sq (exp s')) = 0) by lra. pose proof (ln_touch r P H) as R1. split.
    + rewrite R1, ln_1 in LR. lra.
    + assert (sq d = 0). { assert (0 < 2 * sq (exp s')) by (unfold sq; assert (0 < exp s' * exp s') by (apply Rmult_lt_0_compat; assumption); lra).
        replace (sq d) with (sq d / (2 * sq (exp s')) * (2 * sq (exp s'))) by (field; lra). rewrite D0. ring. }
      unfold sq in H0. apply Rmult_integral in H0. destruct H0; assumption.
  - intros [-> ->]. rewrite T, LR. replace (2 * (s' - s')) with 0 in * by ring. unfold r. replace (2 * (s' - s')) with 0 by ring. rewrite exp_0. unfold sq, Rdiv. ring.
Qed.
Lemma gauss_kl_facts : forall ms ss ms' ss', length ss = length ms -> length ms' = length ms -> length ss' = length ms ->
  exists v, gauss_kl (ms ++ ss) (ms' ++ ss') = Some v /\ 0 <= v /\ (v = 0 <-> ms' = ms /\ ss' = ss).
Proof.
  intros ms ss ms' ss' L1 L2 L3. rewrite gauss_kl_eq by assumption. eexists. split; [reflexivity|].
  assert (K : forall j, 0 <= kterm ms ss ms' ss' j /\ (kterm ms ss ms' ss' j = 0 <-> nth j ss 0 = nth j ss' 0 /\ nth j ms 0 - nth j ms' 0 = 0)) by (intros; apply kterm_facts).
  assert (G : total (map (fun _ : nat => 0) (actions (length ms))) = 0) by (rewrite total_const; ring). split.
  - rewrite <- G. apply total_le. intros j _. apply K.
  - split.
    + intros E. assert (A : forall j, In j (actions (length ms)) -> 0 = kterm ms ss ms' ss' j).
      { apply (total_eq_all (fun _ => 0) (kterm ms ss ms' ss')); [intros; apply K|rewrite G; symmetry; exact E]. }
      split; apply (nth_ext _ _ 0 0); try congruence; intros j Hj; assert (Hin : In j (actions (length ms))) by (apply in_seq; lia);
        pose proof (proj1 (proj2 (K j)) (eq_sym (A j Hin))) as [X Y]; lra.
    + intros [-> ->]. rewrite (total_ext _ (fun _ => 0)); [exact G|]. intros j _. apply K. split; [reflexivity|ring].
Qed.

(** ** Averages *)
Section Average.
  Variable d : list (R * list R).
  Lemma average_ext : forall f g, (forall w x, In (w, x) d -> f x = g x) -> average d f = average d g.
  Proof. intros f g H. unfold average. apply total_ext. intros [w x] Hx. cbn. rewrite (H w x Hx). reflexivity. Qed.
  Lemma average_plus : forall f g, average d (fun x => f x + g x) = average d f + average d g.
  Proof. intros f g. unfold average. rewrite <- total_plus. apply total_ext. intros; ring. Qed.
  Lemma average_scal : forall c f, average d (fun x => c * f x) = c * average d f.
  Proof. intros c f. unfold average. rewrite <- total_scal. apply total_ext. intros; ring. Qed.
  Lemma average_const : forall c, average d (fun _ => c) = c * average d (fun _ => 1).
  Proof. intros c. rewrite <- average_scal. unfold average. apply total_ext. intros; ring. Qed.
  Lemma average_sum : forall (f : nat -> list R -> R) s, average d (fun x => total (map (fun j => f j x) s)) = total (map (fun j => average d (f j)) s).
  Proof.
    intros f. induction s; cbn [map total fold_right].
    - rewrite average_const. ring.
    - rewrite average_plus. unfold total in IHs. rewrite IHs. reflexivity.
  Qed.
End Average.
Section Moments.
  Variables (d : list (R * list R)) (ms ss : list R).
  Hypothesis L : length ss = length ms.
  Hypothesis M : has_moments d ms (map exp ss).
  Lemma nth_exp : forall j, (j < length ms)%nat -> nth j (map exp ss) 0 = exp (nth j ss 0).
  Proof. intros j Hj. rewrite (nth_indep _ 0 (exp 0)) by (rewrite map_length; lia). apply map_nth. Qed.
  (** The average square distance from any point c. *)
  Lemma square_about : forall j c, (j < length ms)%nat -> average d (fun x => (nth j x 0 - c) * (nth j x 0 - c)) = sq (exp (nth j ss 0)) + sq (nth j ms 0 - c).
  Proof.
    intros j c Hj. destruct M as [W [_ H]]. destruct (H j Hj) as [H1 H2]. rewrite nth_exp in H2 by exact Hj.
    rewrite (average_ext _ _ (fun x => (nth j x 0 - nth j ms 0) * (nth j x 0 - nth j ms 0) + (2 * (nth j ms 0 - c) * nth j x 0 + (c * c - nth j ms 0 * nth j ms 0)))) by (intros; ring).
    rewrite average_plus, H2, average_plus, average_scal, H1, average_const, W. unfold sq. ring.
  Qed.
  Lemma average_nl : forall ms' ss', length ms' = length ms -> length ss' = length ms ->
    average d (nl ms' ss') = 5 / 10 * total (map (fun j => (sq (exp (nth j ss 0)) + sq (nth j ms 0 - nth j ms' 0)) / sq (exp (nth j ss' 0))) (actions (length ms)))
      + 5 / 10 * ln (2 * PI) * INR (length ms) + total ss'.
  Proof.
    intros ms' ss' L1 L2. unfold nl. rewrite L1. destruct M as [W _].
    set (T := fun x : list R => total (map (fun j => sq ((nth j x 0 - nth j ms' 0) / exp (nth j ss' 0))) (actions (length ms)))).
    set (c := 5 / 10 * ln (2 * PI) * INR (length ms)).
    match goal with |- _ = ?r => change (average d (fun x => 5 / 10 * T x + c + total ss') = r) end.
    rewrite (average_plus d (fun x => 5 / 10 * T x + c) (fun _ => total ss')), (average_plus d (fun x => 5 / 10 * T x) (fun _ => c)), (average_scal d (5 / 10) T).
    rewrite (average_const d c), (average_const d (total ss')), W. unfold T. rewrite (average_sum d (fun j x => sq ((nth j x 0 - nth j ms' 0) / exp (nth j ss' 0)))).
    f_equal; [f_equal; [f_equal|ring]|ring].
    apply total_ext. intros j Hj. apply in_seq in Hj. pose proof (exp_pos (nth j ss' 0)).
    rewrite (average_ext _ _ (fun x => / sq (exp (nth j ss' 0)) * ((nth j x 0 - nth j ms' 0) * (nth j x 0 - nth j ms' 0)))) by (intros; unfold sq; field; lra).
    rewrite average_scal, square_about by lia. unfold Rdiv. ring.
  Qed.
  Lemma entropy_average : gauss_entropy (ms ++ ss) = Some (average d (nl ms ss)).
  Proof.
    unfold gauss_entropy. rewrite halves_app by exact L. cbn [bind snd]. f_equal. rewrite average_nl by congruence.
    rewrite (total_ext (fun j => (sq (exp (nth j ss 0)) + sq (nth j ms 0 - nth j ms 0)) / sq (exp (nth j ss 0))) (fun _ => 1)).
    2:{ intros j _. pose proof (exp_pos (nth j ss 0)). unfold sq. field. lra. }
    rewrite total_const. unfold actions. rewrite seq_length, rsum_total, (total_plus (fun s => s) (fun _ => 5 / 10 * ln (2 * PI * exp 1))), total_const, map_id, L.
    rewrite ln_mult; [|exact two_pi|apply exp_pos]. rewrite ln_exp. field.
  Qed.
  Lemma kl_average : forall ms' ss', length ms' = length ms -> length ss' = length ms ->
    gauss_kl (ms ++ ss) (ms' ++ ss') = Some (average d (nl ms' ss') - average d (nl ms ss)).
  Proof.
    intros ms' ss' L1 L2. rewrite gauss_kl_eq by assumption. f_equal. rewrite !average_nl by congruence.
    rewrite (total_ext (kterm ms ss ms' ss') (fun j => (nth j ss' 0 + -1 * nth j ss 0) + (5 / 10 * ((sq (exp (nth j ss 0)) + sq (nth j ms 0 - nth j ms' 0)) / sq (exp (nth j ss' 0))) + - (5 / 10)))).
    2:{ intros j _. unfold kterm. pose proof (exp_pos (nth j ss' 0)). unfold sq. field. lra. }
    rewrite !total_plus, !total_scal, total_const.
    rewrite (total_ext (fun j => (sq (exp (nth j ss 0)) + sq (nth j ms 0 - nth j ms 0)) / sq (exp (nth j ss 0))) (fun _ => 1)).
    2:{ intros j _. pose proof (exp_pos (nth j ss 0)). unfold sq. field. lra. }
    rewrite total_const. pose proof (total_nth (fun x => x) ss) as E1. pose proof (total_nth (fun x => x) ss') as E2. rewrite map_id in E1, E2. rewrite E1, E2, L, L2.
    unfold actions. rewrite seq_length. field.
  Qed.
End Moments.

(** ** Mode and samples *)
Lemma gauss_mode_best : forall ms ss x, length ss = length ms -> length x = length ms -> gauss_mode (ms ++ ss) = Some ms /\ nl ms ss ms <= nl ms ss x /\ (nl ms ss x = nl ms ss ms <-> x = ms).
Proof.
  intros ms ss x L1 L2. split; [unfold gauss_mode; rewrite halves_app by exact L1; reflexivity|].
  assert (Z : total (map (fun j => sq ((nth j ms 0 - nth j ms 0) / exp (nth j ss 0))) (actions (length ms))) = 0).
  { rewrite (total_ext _ (fun _ => 0)); [rewrite total_const; ring|]. intros; unfold sq, Rdiv; ring. }
  assert (P : forall j, 0 <= sq ((nth j x 0 - nth j ms 0) / exp (nth j ss 0))) by (intros; unfold sq; apply Rle_0_sqr).
  assert (Z0 : total (map (fun _ : nat => 0) (actions (length ms))) = 0) by (rewrite total_const; ring).
  assert (S0 : 0 <= total (map (fun j => sq ((nth j x 0 - nth j ms 0) / exp (nth j ss 0))) (actions (length ms)))) by (eapply Rle_trans; [rewrite <- Z0; apply Rle_refl|apply total_le; intros; apply P]).
  unfold nl. rewrite Z. split; [lra|]. split; [|intros ->; rewrite Z; reflexivity]. intros E.
  assert (T : total (map (fun j => sq ((nth j x 0 - nth j ms 0) / exp (nth j ss 0))) (actions (length ms))) = 0) by lra.
  apply (nth_ext _ _ 0 0 L2). intros j Hj.
  assert (Q : 0 = sq ((nth j x 0 - nth j ms 0) / exp (nth j ss 0))).
  { apply (total_eq_all (fun _ => 0) (fun j => sq ((nth j x 0 - nth j ms 0) / exp (nth j ss 0))) (actions (length ms))); [intros; apply P|rewrite Z0; symmetry; exact T|apply in_seq; lia]. }
  pose proof (exp_pos (nth j ss 0)). unfold sq in Q. symmetry in Q. apply Rmult_integral in Q.
  assert (W : (nth j x 0 - nth j ms 0) / exp (nth j ss 0) = 0) by (destruct Q; assumption).
  assert (nth j x 0 - nth j ms 0 = (nth j x 0 - nth j ms 0) / exp (nth j ss 0) * exp (nth j ss 0)) by (field; lra). rewrite W in H0. lra.
Qed.
Lemma gauss_sample_spec : forall ms ss e, length ss = length ms -> length e = length ms ->
  exists x, gauss_sample (ms ++ ss) e = Some x /\ length x = length ms /\ forall j, (j < length ms)%nat -> nth j x 0 = nth j ms 0 + exp (nth j ss 0) * nth j e 0.
Proof.
  intros ms ss e L1 L2. unfold gauss_sample. rewrite halves_app by exact L1. cbn [bind fst snd]. rewrite map3_nth by assumption. eexists. split; [reflexivity|]. split.
  - unfold actions. rewrite map_length, seq_length. reflexivity.
  - intros j Hj. set (f := fun j => nth j ms 0 + exp (nth j ss 0) * nth j e 0). change (nth j (map f (actions (length ms))) 0 = f j).
    rewrite (nth_indep _ 0 (f 0%nat)) by (unfold actions; rewrite map_length, seq_length; exact Hj). rewrite map_nth. unfold actions. rewrite seq_nth by exact Hj. reflexivity.
Qed.
Lemma gauss_sample_hits : forall ms ss x, length ss = length ms -> length x = length ms -> exists e, length e = length ms /\ gauss_sample (ms ++ ss) e = Some x.
Proof.
  intros ms ss x L1 L2. exists (map (fun j => (nth j x 0 - nth j ms 0) / exp (nth j ss 0)) (actions (length ms))).
  assert (LE : length (map (fun j => (nth j x 0 - nth j ms 0) / exp (nth j ss 0)) (actions (length ms))) = length ms) by (unfold actions; rewrite map_length, seq_length; reflexivity).
  split; [exact LE|]. destruct (gauss_sample_spec ms ss _ L1 LE) as [y [E [LY H]]]. rewrite E. f_equal. apply (nth_ext _ _ 0 0); [congruence|]. intros j Hj. rewrite H by lia.
  set (f := fun j => (nth j x 0 - nth j ms 0) / exp (nth j ss 0)). fold f in LE. rewrite (nth_indep (map f (actions (length ms))) 0 (f 0%nat)) by lia. rewrite map_nth. unfold actions. rewrite seq_nth by lia.
  unfold f. cbn [Nat.add]. pose proof (exp_pos (nth j ss 0)). field. lra.
Qed.
Lemma gauss_first_spec : forall ms, gauss_mode (gauss_first ms) = Some ms /\ forall x, length x = length ms -> gauss_sample (gauss_first ms) x = Some (map (fun p => fst p + snd p) (combine ms x)).
Proof.
  intros ms. assert (L : length (map (fun x => x * 0 + 0) ms) = length ms) by apply map_length. unfold gauss_first. split.
  - unfold gauss_mode. rewrite halves_app by exact L. reflexivity.
  - intros x Lx. unfold gauss_sample. rewrite halves_app by exact L. cbn [bind fst snd]. f_equal. clear L. unfold map3. revert x Lx. induction ms; intros x Lx; destruct x; try discriminate; [reflexivity|].
    cbn [map combine fst snd]. f_equal; [|apply IHms; cbn in Lx; lia]. replace (a * 0 + 0) with 0 by ring. rewrite exp_0. ring.
Qed.
Lemma gauss_odd : forall flat x, Nat.even (length flat) = false -> gauss_neglogp flat x = None /\ gauss_entropy flat = None /\ gauss_mode flat = None.
Proof. intros flat x H. unfold gauss_neglogp, gauss_entropy, gauss_mode, halves. rewrite H. repeat split. Qed.
Lemma gauss_entropy_any : forall n v, (0 < n)%nat -> exists flat, length flat = (2 * n)%nat /\ gauss_entropy flat = Some v.
Proof.
  intros n v Hn. set (s := v / INR n - 5 / 10 * ln (2 * PI * exp 1)). exists (repeat 0 n ++ repeat s n). split; [rewrite app_length, !repeat_length; lia|].
  unfold gauss_entropy. rewrite halves_app by (rewrite !repeat_length; reflexivity). cbn [bind snd]. f_equal. rewrite rsum_total.
  rewrite (total_ext _ (fun _ => v / INR n)).
  - rewrite total_const, repeat_length. field. apply not_0_INR. lia.
  - intros x Hx. apply repeat_spec in Hx. subst x. unfold s. ring.
Qed.
