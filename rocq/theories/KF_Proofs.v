From mathcomp Require Import all_ssreflect all_algebra.
From Verif Require Import KF_Model KF_Spec.
Set Implicit Arguments. Unset Strict Implicit. Unset Printing Implicit Defensive.
Import GRing.Theory Num.Theory Order.Theory.
Local Open Scope ring_scope.

Section Proofs.
Variable R : rcfType.
(** ** Statistics *)
Lemma stats_from_add d N (decay : R) (news : seq 'M[R]_d) : forall n S, (n + size news <= N)%N ->
  stats_from N decay n S news = S + N%:R^-1 *: \sum_(x <- news) x.
Proof.
elim: news => [|x r IH] n S /= H; first by rewrite big_nil scaler0 addr0.
have Hn : (N <= n)%N = false by apply/negbTE; rewrite -ltnNge (leq_trans _ H) // addnS ltnS leq_addr.
rewrite IH; last by rewrite addSn -addnS.
by rewrite /apply_stats Hn big_cons scalerDr addrA.
Qed.
Lemma stats_mean d N (decay : R) (news : seq 'M[R]_d) : (size news <= N)%N -> stats N decay news = N%:R^-1 *: \sum_(x <- news) x.
Proof. by move=> H; rewrite /stats stats_from_add ?add0n // add0r. Qed.
Lemma stats_from_cat d N (decay : R) (a b : seq 'M[R]_d) : forall n S, stats_from N decay n S (a ++ b) = stats_from N decay (n + size a) (stats_from N decay n S a) b.
Proof. by elim: a => [|x a IH] n S /=; rewrite ?addn0 // IH addSn addnS. Qed.
Lemma stats_rcons d N (decay : R) (news : seq 'M[R]_d) x : (N <= size news)%N ->
  stats N decay (rcons news x) = decay *: stats N decay news + (1 - decay) *: x.
Proof. by move=> H; rewrite /stats -cats1 stats_from_cat /= add0n /apply_stats H. Qed.
Lemma stats_decay d N (decay : R) (first later : seq 'M[R]_d) : size first = N ->
  stats N decay (first ++ later) = decay ^+ size later *: (N%:R^-1 *: \sum_(x <- first) x)
     + (1 - decay) *: \sum_(i < size later) decay ^+ (size later - i.+1) *: nth 0 later i.
Proof.
move=> H; elim/last_ind: later => [|later x IH].
  by rewrite cats0 big_ord0 scaler0 addr0 expr0 scale1r stats_mean ?H.
rewrite -rcons_cat stats_rcons; last by rewrite size_cat H leq_addr.
rewrite IH size_rcons big_ord_recr /= nth_rcons ltnn eqxx subnn expr0 scale1r.
rewrite scalerDr (scalerA decay (decay ^+ _)) -exprS -addrA; congr (_ + _).
rewrite scalerDr (scalerA decay (1 - decay)) mulrC -scalerA scaler_sumr; congr (_ *: _ + _).
apply: eq_bigr => i _; rewrite scalerA -exprS nth_rcons ltn_ord; congr (_ ^+ _ *: _).
by rewrite -subSn // subSS.
Qed.
Lemma nonneg_add d (S T : 'M[R]_d) : nonnegative S -> nonnegative T -> nonnegative (S + T).
Proof. by move=> HS HT v; rewrite mulmxDr mulmxDl mxE addr_ge0. Qed.
Lemma nonneg_scale d (S : 'M[R]_d) a : 0 <= a -> nonnegative S -> nonnegative (a *: S).
Proof. by move=> Ha HS v; rewrite -scalemxAr -scalemxAl mxE mulr_ge0. Qed.
Lemma stats_good d N (decay : R) (news : seq 'M[R]_d) : 0 <= decay <= 1 -> (forall x, x \in news -> symmetric x /\ nonnegative x) ->
  symmetric (stats N decay news) /\ nonnegative (stats N decay news).
Proof.
move=> /andP[d0 d1] H; rewrite /stats; move: (0%N) => n.
have : symmetric (0 : 'M[R]_d) /\ nonnegative (0 : 'M[R]_d) by split; [rewrite /symmetric trmx0|move=> v; rewrite mulmx0 mul0mx mxE].
move: (0 : 'M[R]_d) => S HS; elim: news n S HS H => [|x r IH] n S [HS HS'] H //=.
have [Hx Hx'] := H x (mem_head _ _).
apply: IH; last by move=> y Hy; apply: H; rewrite inE Hy orbT.
rewrite /apply_stats; case: ifP => _; split.
- by rewrite /symmetric linearD /= !linearZ /= HS Hx.
- by apply: nonneg_add; apply: nonneg_scale => //; rewrite subr_ge0.
- by rewrite /symmetric linearD /= !linearZ /= HS Hx.
- by apply: nonneg_add => //; apply: nonneg_scale => //; rewrite invr_ge0 ler0n.
Qed.
Lemma cov_good b d (X : 'M[R]_(b, d)) : symmetric (cov X) /\ nonnegative (cov X).
Proof.
split; first by rewrite /symmetric /cov linearZ /= trmx_mul trmxK.
apply: nonneg_scale => [|v]; first by rewrite invr_ge0 ler0n.
rewrite mulmxA -mulmxA -[v *m X^T]trmxK trmx_mul trmxK mxE; apply: sumr_ge0 => i _; by rewrite !mxE -expr2 sqr_ge0.
Qed.

(** ** Inner products *)
Lemma inner_tr m n (X Y : 'M[R]_(m, n)) : inner X Y = \tr (X^T *m Y).
Proof.
rewrite /inner /mxtrace exchange_big /=; apply: eq_bigr => j _; rewrite mxE; apply: eq_bigr => i _; by rewrite mxE.
Qed.
Lemma inner_move m n (Q : 'M[R]_m) (P : 'M[R]_n) (W G : 'M[R]_(m, n)) : inner (Q *m W *m P^T) G = inner W (Q^T *m G *m P).
Proof. by rewrite !inner_tr !trmx_mul trmxK mxtrace_mulC !mulmxA mxtrace_mulC !mulmxA mxtrace_mulC !mulmxA. Qed.
Lemma inner_stack m n (X : 'M[R]_(m + 1, n)) (G : 'M[R]_(m, n)) (b : 'rV[R]_n) : inner (usubmx X) G + inner (dsubmx X) b = inner X (col_mx G b).
Proof.
rewrite /inner [RHS]big_split_ord /=; congr (_ + _); apply: eq_bigr => i _; apply: eq_bigr => j _; by rewrite ?col_mxEu ?col_mxEd !mxE.
Qed.
(** ** The update *)
Section Layer.
Variables (damping : R) (l : layer R).
Hypothesis Hd : 0 < damping.
Lemma threshold_pos : 0 < threshold R. Proof. by rewrite /threshold invr_gt0 exprn_gt0 // ltr0n. Qed.
Lemma clipout_ge0 x : 0 <= clipout x :> R.
Proof. by rewrite /clipout; case: ifP => // H; rewrite ltW // (lt_trans threshold_pos). Qed.
Lemma coeff_pos i j : 0 < coeff damping (l := l) i j.
Proof. by rewrite /coeff ltr_spaddr // mulr_ge0 // clipout_ge0. Qed.
Lemma layer_inner : inner (weights_update damping l) (weights l) + inner (bias_update damping l) (bias l) = inner (precond damping l) (stacked l).
Proof. exact: inner_stack. Qed.
Lemma precond_inner : inner (precond damping l) (stacked l) = \sum_i \sum_j project l i j ^+ 2 / coeff damping i j.
Proof. by rewrite /precond inner_move; apply: eq_bigr => i _; apply: eq_bigr => j _; rewrite /whiten mxE mulrC mulrA expr2. Qed.
Lemma descent : 0 <= inner (weights_update damping l) (weights l) + inner (bias_update damping l) (bias l).
Proof.
rewrite layer_inner precond_inner; apply: sumr_ge0 => i _; apply: sumr_ge0 => j _; by rewrite divr_ge0 ?sqr_ge0 // ltW // coeff_pos.
Qed.
Lemma orthogonal_r d (Q : 'M[R]_d) : orthogonal Q -> Q *m Q^T = 1%:M.
Proof. exact: mulmx1C. Qed.
Lemma descent_strict : sound l -> weights l != 0 \/ bias l != 0 -> 0 < inner (weights_update damping l) (weights l) + inner (bias_update damping l) (bias l).
Proof.
move=> [Ha Hg] Hn; rewrite lt_neqAle descent andbT eq_sym; apply/negP => /eqP E.
suff G0 : stacked l = 0.
  move/eqP: G0; rewrite /stacked col_mx_eq0 => /andP[/eqP H1 /eqP H2]; by case: Hn; rewrite ?H1 ?H2 eqxx.
have P0 : project l = 0.
  apply/matrixP => i j; rewrite [RHS]mxE; rewrite layer_inner precond_inner in E.
  have nn : forall i, true -> 0 <= \sum_j project l i j ^+ 2 / coeff damping i j.
    by move=> i' _; apply: sumr_ge0 => j' _; rewrite divr_ge0 ?sqr_ge0 // ltW // coeff_pos.
  have Ei : \sum_j project l i j ^+ 2 / coeff damping i j = 0 by apply: (psumr_eq0P nn E).
  have nj : forall j, true -> 0 <= project l i j ^+ 2 / coeff damping i j by move=> j' _; rewrite divr_ge0 ?sqr_ge0 // ltW // coeff_pos.
  have /eqP : project l i j ^+ 2 / coeff damping i j = 0 by apply: (psumr_eq0P nj Ei).
  by rewrite mulf_eq0 invr_eq0 (gt_eqF (coeff_pos i j)) orbF sqrf_eq0 => /eqP ->.
have : act_Q l *m project l *m (grad_Q l)^T = stacked l.
  by rewrite /project !mulmxA (orthogonal_r Ha) mul1mx -mulmxA (orthogonal_r Hg) mulmx1.
by rewrite P0 mulmx0 mul0mx => <-.
Qed.
Lemma solves : sound l ->
  matrix_of (act_Q l) (kept (act_e l)) *m precond damping l *m matrix_of (grad_Q l) (kept (grad_e l)) + damping *: precond damping l = stacked l.
Proof.
move=> [Ha Hg]; rewrite /matrix_of /precond.
have E : act_Q l *m diag_mx (kept (act_e l)) *m (act_Q l)^T *m (act_Q l *m whiten damping l *m (grad_Q l)^T) *m (grad_Q l *m diag_mx (kept (grad_e l)) *m (grad_Q l)^T)
  = act_Q l *m (diag_mx (kept (act_e l)) *m whiten damping l *m diag_mx (kept (grad_e l))) *m (grad_Q l)^T.
  rewrite !mulmxA -(mulmxA _ (act_Q l)^T (act_Q l)) Ha mulmx1.
  by rewrite -(mulmxA _ (grad_Q l)^T (grad_Q l)) Hg mulmx1.
rewrite E scalemxAl scalemxAr -mulmxDl -mulmxDr.
have -> : diag_mx (kept (act_e l)) *m whiten damping l *m diag_mx (kept (grad_e l)) + damping *: whiten damping l = project l.
  apply/matrixP => i j; have H := coeff_pos i j.
  have W : whiten damping l i j = project l i j / coeff damping i j by rewrite /whiten mxE.
  have -> : (diag_mx (kept (act_e l)) *m whiten damping l *m diag_mx (kept (grad_e l)) + damping *: whiten damping l) i j
    = clipout (act_e l 0 i) * whiten damping l i j * clipout (grad_e l 0 j) + damping * whiten damping l i j.
    rewrite mul_mx_diag mul_diag_mx; move: (whiten damping l) => V; by rewrite !mxE.
  by rewrite W mulrAC -mulrDl -/(coeff damping i j) mulrCA divff ?mulr1 // gt_eqF.
by rewrite /project !mulmxA (orthogonal_r Ha) mul1mx -mulmxA (orthogonal_r Hg) mulmx1.
Qed.
End Layer.
End Proofs.
