(** Proofs about the initial weights. *)
From mathcomp Require Import all_ssreflect all_algebra.
From Verif Require Import OW_Model OW_Spec.
Set Implicit Arguments. Unset Strict Implicit. Unset Printing Implicit Defensive.
Import GRing.Theory Num.Theory.
Local Open Scope ring_scope.

Section Proofs.
Variable R : rcfType.
Implicit Types (svd : svd_t R) (scale : R).

Lemma len2E n (x : 'rV[R]_n) : x *m x^T = (len2 x)%:M.
Proof. apply/rowP => i; rewrite !mxE ord1 /= mulr1n; apply: eq_bigr => j _; by rewrite !mxE expr2. Qed.
Lemma len2_ge0 n (x : 'rV[R]_n) : 0 <= len2 x.
Proof. by apply: sumr_ge0 => j _; apply: sqr_ge0. Qed.
Lemma scalar_inj (a b : R) : a%:M = b%:M :> 'M[R]_1 -> a = b.
Proof. by move/matrixP => /(_ 0 0); rewrite !mxE /= !mulr1n. Qed.

Lemma tr_scale m n (a : R) (A : 'M[R]_(m, n)) : (a *: A)^T = a *: A^T.
Proof. by apply/matrixP => i j; rewrite !mxE. Qed.
Lemma tr_sub m n (A B : 'M[R]_(m, n)) : (A - B)^T = A^T - B^T.
Proof. by apply/matrixP => i j; rewrite !mxE. Qed.
(** A matrix of the right shape is what is picked; stated for any k equal to n (or m), to avoid casts. *)
Lemma pick_u m k n (u : 'M[R]_(m, k)) (w : 'M[R]_(m, n)) : k = n -> u^T *m u = 1%:M -> (conform_mx w u)^T *m conform_mx w u = 1%:M.
Proof. move=> E; case: n / E w => w. by rewrite conform_mx_id. Qed.
Lemma pick_v m k n (u : 'M[R]_(m, k)) (v : 'M[R]_(k, n)) : k = m -> k <> n \/ k = n -> v *m v^T = 1%:M -> (m = n -> u^T *m u = 1%:M) ->
  conform_mx (conform_mx 0 v) u *m (conform_mx (conform_mx 0 v) u : 'M[R]_(m, n))^T = 1%:M.
Proof.
move=> E; case: m / E u => u [N|E] V U.
  rewrite nonconform_mx; last by rewrite (introN eqP N) orbT.
  by rewrite conform_mx_id.
move: U; case: n / E v V => v V U; rewrite conform_mx_id.
have := U erefl; exact: mulmx1C.
Qed.

Theorem shapes svd scale (noise : forall m n, 'M[R]_(m, n)) shape :
  ((size shape = 2)%N \/ (size shape = 4)%N <-> exists W, ortho_init svd scale noise shape = Some W) /\
  (forall a b, ortho_init svd scale noise [:: a; b] = Some (existT (fun mn : nat * nat => 'M[R]_(mn.1, mn.2)) (a, b) (weights svd scale (noise a b)))) /\
  (forall a b c d, ortho_init svd scale noise [:: a; b; c; d] = Some (existT (fun mn : nat * nat => 'M[R]_(mn.1, mn.2)) ((a * b * c)%N, d) (weights svd scale (noise (a * b * c)%N d)))).
Proof.
split; last by split.
split.
  by case: shape => [|? [|? [|? [|? [|? ?]]]]] /= [] // _; eexists.
by case: shape => [|? [|? [|? [|? [|? ?]]]]] /= [W] //; auto.
Qed.
Theorem rows_flat a b c i j k i' j' k' : (j < b)%N -> (k < c)%N -> (j' < b)%N -> (k' < c)%N -> (i < a)%N ->
  (flat_row b c i j k < a * b * c)%N /\ (flat_row b c i j k = flat_row b c i' j' k' -> [/\ i = i', j = j' & k = k']).
Proof.
move=> J K J' K' I; rewrite /flat_row; split.
  have L1 : (i * b + j < a * b)%N by apply: (leq_trans (n := i.+1 * b)); [rewrite mulSn addnC ltn_add2r | rewrite leq_mul2r I orbT].
  by apply: (leq_trans (n := (i * b + j).+1 * c)); [rewrite mulSn addnC ltn_add2r | rewrite leq_mul2r L1 orbT].
move=> E.
have B : (0 < b)%N by apply: leq_trans J. have C : (0 < c)%N by apply: leq_trans K.
have Ek : k = k' by move: (congr1 (modn^~ c) E); rewrite /= !modnMDl !modn_small.
have Eij : (i * b + j = i' * b + j')%N by move: (congr1 (divn^~ c) E); rewrite /= !divnMDl // !divn_small // !addn0.
have Ej : j = j' by move: (congr1 (modn^~ b) Eij); rewrite /= !modnMDl !modn_small.
have Ei : i = i' by move: (congr1 (divn^~ b) Eij); rewrite /= !divnMDl // !divn_small // !addn0.
by [].
Qed.

Lemma weights_cols svd scale m n (noise : 'M[R]_(m, n)) : is_svd svd -> (n <= m)%N -> (weights svd scale noise)^T *m weights svd scale noise = (scale ^+ 2)%:M.
Proof.
move=> S L; have [U _] := S m n noise; rewrite /weights; move: U; case: (svd m n noise) => u v /= U.
rewrite tr_scale -scalemxAl -scalemxAr scalerA pick_u //; last by apply/minn_idPr.
by rewrite -expr2 scale_scalar_mx mulr1.
Qed.
Lemma weights_rows svd scale m n (noise : 'M[R]_(m, n)) : is_svd svd -> (m <= n)%N -> weights svd scale noise *m (weights svd scale noise)^T = (scale ^+ 2)%:M.
Proof.
move=> S L; have [U V] := S m n noise; rewrite /weights; move: U V; case: (svd m n noise) => u v /= U V.
rewrite tr_scale -scalemxAl -scalemxAr scalerA pick_v //.
- by rewrite -expr2 scale_scalar_mx mulr1.
- by apply/minn_idPl.
- by case: (eqVneq (minn m n) n) => [->|/eqP]; auto.
Qed.
Theorem keeps_length svd scale m n (noise : 'M[R]_(m, n)) (x : 'rV[R]_m) : is_svd svd ->
  ((m <= n)%N -> len2 (x *m weights svd scale noise) = scale ^+ 2 * len2 x) /\ len2 (x *m weights svd scale noise) <= scale ^+ 2 * len2 x.
Proof.
move=> S; have A : (m <= n)%N -> len2 (x *m weights svd scale noise) = scale ^+ 2 * len2 x.
  move=> L; apply: scalar_inj; rewrite -len2E trmx_mul mulmxA -(mulmxA x) weights_rows // mul_mx_scalar -scalemxAl len2E scale_scalar_mx //.
split => //; case: (leqP m n) => [/A->//|/ltnW L].
set W := weights svd scale noise; have W2 : W^T *m W = (scale ^+ 2)%:M by apply: weights_cols.
case: (eqVneq scale 0) => [Z|NZ].
  rewrite (_ : x *m W = 0).
    by rewrite /len2 big1 ?Z ?expr0n ?mul0r // => j _; rewrite mxE expr0n.
  have: W = 0 by rewrite /W /weights; case: (svd m n noise) => u v; rewrite Z scale0r.
  by move=> ->; rewrite mulmx0.
have NZ2 : scale ^+ 2 != 0 by rewrite expf_neq0.
pose y := x *m W; pose z := x - (scale ^- 2) *: (y *m W^T).
have E : scale ^+ 2 * len2 x - len2 y = scale ^+ 2 * len2 z.
  apply: scalar_inj; rewrite raddfB /= -!scale_scalar_mx -!len2E /z tr_sub mulmxBl !mulmxBr.
  have T1 : (scale ^- 2 *: (y *m W^T)) *m x^T = scale ^- 2 *: (y *m y^T) by rewrite -scalemxAl -mulmxA -trmx_mul.
  have T2 : x *m (scale ^- 2 *: (y *m W^T))^T = scale ^- 2 *: (y *m y^T).
    by rewrite tr_scale -scalemxAr trmx_mul trmxK mulmxA.
  have T3 : (scale ^- 2 *: (y *m W^T)) *m (scale ^- 2 *: (y *m W^T))^T = scale ^- 2 *: (y *m y^T).
    rewrite tr_scale -scalemxAr -scalemxAl trmx_mul trmxK mulmxA -(mulmxA y) W2 mul_mx_scalar -scalemxAl !scalerA; congr (_ *: _).
    by rewrite divfK.
  rewrite T1 T2 T3 subrr subr0 scalerBr scalerA divff // scale1r //.
rewrite -subr_ge0 -/y E; apply: mulr_ge0; [exact: sqr_ge0 | exact: len2_ge0].
Qed.
Theorem keeps_distance svd scale bias m n (noise : 'M[R]_(m, n)) b (X : 'M[R]_(b, m)) i j : is_svd svd ->
  let Y := linear svd scale bias noise X in
  ((m <= n)%N -> len2 (row i Y - row j Y) = scale ^+ 2 * len2 (row i X - row j X)) /\ len2 (row i Y - row j Y) <= scale ^+ 2 * len2 (row i X - row j X).
Proof.
move=> S Y; have -> : row i Y - row j Y = (row i X - row j X) *m weights svd scale noise.
  by rewrite mulmxBl -!row_mul /Y /linear; apply/rowP => k; rewrite !mxE opprD addrACA subrr addr0.
exact: keeps_length.
Qed.
End Proofs.
