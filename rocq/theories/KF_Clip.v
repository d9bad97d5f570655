From mathcomp Require Import all_ssreflect all_algebra.
From Verif Require Import KF_Model KF_Spec KF_Proofs.
Set Implicit Arguments. Unset Strict Implicit. Unset Printing Implicit Defensive.
Import GRing.Theory Num.Theory Order.Theory.
Local Open Scope ring_scope.

Section Clip.
Variable R : rcfType.
Lemma v_g_ge0 (damping lr : R) (ls : seq (layer R)) : 0 < damping -> 0 <= v_g damping lr ls.
Proof.
move=> Hd; rewrite /v_g; elim: ls => [|l ls IH]; first by rewrite big_nil.
rewrite big_cons addr_ge0 // -mulrDr mulr_ge0 ?sqr_ge0 //; exact: descent.
Qed.
Lemma scaling_facts (clip v : R) : 0 < clip -> 0 <= v ->
  0 < scaling clip v <= 1 /\ scaling clip v ^+ 2 * v <= clip /\ (scaling clip v = 1 <-> v <= clip).
Proof.
move=> Hc; rewrite le_eqVlt /scaling => /orP[/eqP <-|Hv].
  by rewrite eqxx ltr01 lexx mulr0; split=> //; split; [exact: ltW|split=> // _; exact: ltW].
rewrite gt_eqF //; have Hq : 0 < clip / v by rewrite divr_gt0.
have Hs : 0 < Num.sqrt (clip / v) by rewrite sqrtr_gt0.
have Hle : (1 <= Num.sqrt (clip / v)) = (v <= clip) by rewrite -[X in X <= _]sqrtr1 (ler_sqrt _ Hq) ler_pdivl_mulr // mul1r.
rewrite -Hle /Num.min; case: (ltrP 1 (Num.sqrt (clip / v))) => H.
  rewrite ltr01 lexx expr1n mul1r; have := ltW H; rewrite Hle => H'; by split.
rewrite Hs H sqr_sqrtr; last exact: ltW.
rewrite -mulrA mulVf ?gt_eqF // mulr1; split=> //; split=> //; split=> [->//|H'].
by apply/eqP; rewrite eq_le H H'.
Qed.
(** Small eigenvalues. *)
Definition tiny : layer R := @Layer R 0 1 0 (const_mx 1) (const_mx (threshold R)) 1%:M (const_mx 1) 1%:M.
Lemma tiny_sound : sound tiny. Proof. by split; rewrite /orthogonal trmx1 mulmx1. Qed.
Lemma threshold_lt1 : threshold R < 1.
Proof. by rewrite /threshold invf_lt1 ?exprn_gt0 ?ltr0n // exprn_egt1 // ltr1n. Qed.
Lemma dropped damping : 0 < damping ->
  matrix_of (act_Q tiny) (act_e tiny) *m precond damping tiny *m matrix_of (grad_Q tiny) (grad_e tiny) + damping *: precond damping tiny != stacked tiny.
Proof.
move=> Hd; rewrite /precond /matrix_of /= !trmx1 !mul1mx !mulmx1.
apply/negP => /eqP /matrixP /(_ 0 0).
have Hp : project tiny = stacked tiny by rewrite /project /= trmx1 mul1mx mulmx1.
have H1 : forall i j, stacked tiny i j = 1 by move=> i j; rewrite /stacked /= mxE; case: splitP => k; [case: k|rewrite mxE].
have Hw : forall i j, whiten damping tiny i j = damping^-1.
  by move=> i j; rewrite mxE Hp H1 /coeff /= !mxE /clipout ltxx mul0r add0r mul1r.
rewrite H1; move: (whiten damping tiny) Hw => /= W Hw.
rewrite !mxE big_ord1 !mxE big_ord1 !mxE !Hw !eqxx /= !mulr1n mulr1 mulfV ?gt_eqF // => /eqP.
by rewrite -subr_eq0 addrK gt_eqF // divr_gt0 // threshold_pos.
Qed.
(** ** The order of updates *)
End Clip.
Section Train.
Variable c : nat.
Definition after (rs : seq reads) (k : counters) : counters := foldl (fun k r => (train c r k).2) k rs.
Lemma sgd_after rs : sgd_step (after rs start) = minn (size rs) c.+1.
Proof.
elim/last_ind: rs => [|rs r IH]; first by rewrite min0n.
rewrite /after foldl_rcons -/(after rs start) /train /= IH size_rcons.
case: (leqP (size rs) c) => H.
  rewrite (minn_idPl (leqW H)) ltnNge H /= (minn_idPl _) //.
have -> : minn (size rs) c.+1 = c.+1 by apply/minn_idPr.
by rewrite ltnSn; symmetry; apply/minn_idPr; apply: leqW.
Qed.
Lemma stats_after rs : stats_step (after rs start) = size rs.
Proof. by elim/last_ind: rs => [|rs r IH] //; rewrite /after foldl_rcons -/(after rs start) /train /= IH size_rcons. Qed.
Lemma factor_after rs : (c < size rs)%N -> (0 < factor_step (after rs start))%N.
Proof.
elim/last_ind: rs => [|rs r IH] //; rewrite size_rcons /after foldl_rcons -/(after rs start) /train /= stats_after => H.
case: (leqP c (size rs)) => H'; first by case: (late_stats r); rewrite ?H' ?(leqW H').
by move: H; rewrite ltnS leqNgt H'.
Qed.
Lemma trainings_nth rs : forall k i d, (i < size rs)%N -> nth d (trainings c rs k) i = (train c (nth (Reads false false false) rs i) (after (take i rs) k)).1.
Proof. elim: rs => [|r rs IH] k [|i] d //= H; exact: IH. Qed.
Lemma size_trainings rs : forall k, size (trainings c rs k) = size rs.
Proof. by elim: rs => [|r rs IH] k //=; rewrite IH. Qed.
Lemma size_take_lt rs i : (i < size rs)%N -> size (take i (rs : seq reads)) = i.
Proof. by move=> H; rewrite size_take H. Qed.
Lemma made_cold rs i : (i < size rs)%N -> cold (made c rs i) = (i <= c)%N.
Proof.
move=> H; rewrite /made trainings_nth // /train /= sgd_after size_take_lt //.
case: (leqP i c) => H'; first by rewrite (minn_idPl (leqW H')) ltnNge H'.
have -> : minn i c.+1 = c.+1 by apply/minn_idPr.
by rewrite ltnSn.
Qed.
Lemma made_early rs i : (i < size rs)%N -> (i.+1 < c)%N -> made c rs i = Updates true None.
Proof.
move=> H Hc; rewrite /made trainings_nth // /train /= sgd_after size_take_lt //.
have Hi : (i <= c)%N by apply: ltnW; apply: ltnW.
rewrite (minn_idPl (leqW Hi)) ltnNge Hi /=; congr (Updates _ _).
case: (late_sgd _); by rewrite leqNgt ?Hc ?(ltnW Hc).
Qed.
Lemma made_both rs : (c < size rs)%N -> cold (made c rs c) = true /\ kfac (made c rs c) <> None.
Proof.
move=> H; split; first by rewrite made_cold // leqnn.
rewrite /made trainings_nth // /train /= sgd_after size_take_lt // (minn_idPl (leqnSn c)) ltnn.
by case: (late_sgd _); rewrite ?leqnn ?leqnSn.
Qed.
Lemma made_at rs i : (i <= c)%N -> (i < size rs)%N ->
  exists f, made c rs i = (train c (nth (Reads false false false) rs i) (Counters i i f)).1 /\ f = factor_step (after (take i rs) start).
Proof.
move=> Hi Hs; exists (factor_step (after (take i rs) start)); split=> //; rewrite /made trainings_nth //.
have E1 := sgd_after (take i rs); have E2 := stats_after (take i rs).
rewrite size_take_lt // in E1 E2; rewrite (minn_idPl (leqW Hi)) in E1.
by move: E1 E2; case: (after (take i rs) start) => a b f /= -> ->.
Qed.
Lemma factor_early rs : (size rs <= c)%N -> all (fun r => ~~ late_stats r) rs -> factor_step (after rs start) = 0%N.
Proof.
elim/last_ind: rs => [|rs r IH] //; rewrite size_rcons all_rcons /after foldl_rcons -/(after rs start) /train /= stats_after => H /andP[/negbTE -> Ha].
by rewrite leqNgt H /= IH // ltnW.
Qed.
Lemma made_early_reads rs : (c <= size rs)%N -> (0 < c)%N -> ~~ late_sgd (nth (Reads false false false) rs c.-1) -> kfac (made c rs c.-1) = None.
Proof.
move=> Hs Hc /negbTE Hr; have Hp : (c.-1 < c)%N by rewrite ltn_predL.
have [f [-> _]] := made_at (ltnW Hp) (leq_trans Hp Hs).
by rewrite /train /= Hr leqNgt Hp.
Qed.
Lemma made_late_reads rs : (c <= size rs)%N -> (0 < c)%N -> late_sgd (nth (Reads false false false) rs c.-1) -> kfac (made c rs c.-1) <> None.
Proof.
move=> Hs Hc Hr; have Hp : (c.-1 < c)%N by rewrite ltn_predL.
have [f [-> _]] := made_at (ltnW Hp) (leq_trans Hp Hs).
by rewrite /train /= Hr ltnNge (ltnW Hp) /= prednK // leqnn.
Qed.
Lemma made_plain rs : (c < size rs)%N -> all (fun r => ~~ late_stats r) (take c rs) -> ~~ late_factor (nth (Reads false false false) rs c) ->
  kfac (made c rs c) = Some false.
Proof.
move=> Hs Ha /negbTE Hf; have [f [-> E]] := made_at (leqnn c) Hs.
rewrite /train /= Hf E factor_early //; last by rewrite size_take_lt.
by case: (late_sgd _); rewrite ?ltnn ?leqnn ?leqnSn.
Qed.
Lemma made_preconditioned rs : (c < size rs)%N -> late_factor (nth (Reads false false false) rs c) -> kfac (made c rs c) = Some true.
Proof.
move=> Hs Hf; have [f [-> E]] := made_at (leqnn c) Hs.
rewrite /train /= Hf ltnn; case: (late_sgd _); case: (late_stats _); by rewrite ?leqnn ?leqnSn /= ?leqnSn.
Qed.
Lemma made_late rs i : (i < size rs)%N -> (c < i)%N -> made c rs i = Updates false (Some true).
Proof.
move=> H Hi; rewrite /made trainings_nth // /train /= sgd_after size_take_lt //.
have -> : minn i c.+1 = c.+1 by apply/minn_idPr.
have Hf : (0 < factor_step (after (take i rs) start))%N by apply: factor_after; rewrite size_take_lt.
rewrite ltnSn /=; congr (Updates _ _); rewrite if_same leqnSn.
by congr Some; case: (late_factor _); rewrite ?Hf //; case: ifP.
Qed.
End Train.
Lemma race c rs : (c < size rs)%N ->
  ((0 < c)%N -> kfac (made c rs c.-1) <> None <-> late_sgd (nth (Reads false false false) rs c.-1))
  /\ (late_factor (nth (Reads false false false) rs c) -> kfac (made c rs c) = Some true)
  /\ (all (fun r => ~~ late_stats r) (take c rs) -> ~~ late_factor (nth (Reads false false false) rs c) -> kfac (made c rs c) = Some false).
Proof.
move=> H; split; last by split; [exact: made_preconditioned|exact: made_plain].
move=> Hc; split; last exact: made_late_reads (ltnW H) Hc.
move=> Hk; apply/negPn/negP => Hl; apply: Hk; exact: made_early_reads (ltnW H) Hc Hl.
Qed.
Section More.
Variable R : rcfType.
Lemma batches_good d N (decay : R) (batches : seq {b : nat & 'M[R]_(b, d)}) : 0 <= decay <= 1 ->
  (symmetric (stats N decay [seq act_cov (projT2 X) | X <- batches]) /\ nonnegative (stats N decay [seq act_cov (projT2 X) | X <- batches]))
  /\ symmetric (stats N decay [seq grad_cov (projT2 X) | X <- batches]) /\ nonnegative (stats N decay [seq grad_cov (projT2 X) | X <- batches]).
Proof.
move=> H; split; apply: stats_good => // x.
  elim: batches => [|X r IH] //=; rewrite inE => /orP[/eqP ->|//]; exact: cov_good.
elim: batches => [|X r IH] //=; rewrite inE => /orP[/eqP ->|//]; exact: cov_good.
Qed.
Lemma update_col (damping : R) l : col_mx (weights_update damping l) (bias_update damping l) = precond damping l.
Proof. exact: vsubmxK. Qed.
Lemma solves_col (damping : R) (l : layer R) : 0 < damping -> sound l ->
  let U := col_mx (weights_update damping l) (bias_update damping l) in
  matrix_of (act_Q l) (kept (act_e l)) *m U *m matrix_of (grad_Q l) (kept (grad_e l)) + damping *: U = col_mx (weights l) (bias l).
Proof. by move=> Hd Hs U; rewrite /U update_col; apply: solves. Qed.
Lemma dropped_col : exists l : layer R, sound l /\ forall damping : R, 0 < damping ->
  let U := col_mx (weights_update damping l) (bias_update damping l) in
  matrix_of (act_Q l) (act_e l) *m U *m matrix_of (grad_Q l) (grad_e l) + damping *: U <> col_mx (weights l) (bias l).
Proof.
exists (tiny R); split; first exact: tiny_sound.
move=> damping Hd U; rewrite /U update_col => E; have := dropped Hd; by rewrite E /stacked eqxx.
Qed.
End More.
