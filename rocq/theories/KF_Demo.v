(** Cases for C123. *)
From mathcomp Require Import all_ssreflect all_algebra.
From mathcomp Require Import perm realalg.
From Verif Require Import KF_Model KF_Spec KF_Proofs KF_Clip KF_Final.
Set Implicit Arguments. Unset Strict Implicit. Unset Printing Implicit Defensive.
Import GRing.Theory Num.Theory Order.Theory.
Local Open Scope ring_scope.
(** The real algebraic numbers are such a field. *)
Definition K : rcfType := [rcfType of realalg].
(** Two inputs and a bias, two outputs; eigenvectors that swap the first two axes. *)
Definition swap3 : 'M[K]_(2 + 1) := perm_mx (tperm 0 1).
Definition demo_layer : layer K := @Layer K 2 2 (const_mx 1) (const_mx 2%:R) (const_mx 3%:R) swap3 (const_mx 5%:R) 1%:M.
Example demo_sound : sound demo_layer.
Proof. split; rewrite /orthogonal ?trmx1 ?mulmx1 //= /swap3 tr_perm_mx -perm_mxM tpermV tperm2 perm_mx1 //. Qed.
Example demo_gradient : weights demo_layer != 0.
Proof. apply/negP => /eqP /matrixP /(_ 0 0); rewrite /= !mxE => /eqP; by rewrite oner_eq0. Qed.
Example demo_descends : 0 < inner (weights_update 1 demo_layer) (weights demo_layer) + inner (bias_update 1 demo_layer) (bias demo_layer).
Proof. apply: descent_strict; [exact: ltr01|exact: demo_sound|by left; exact: demo_gradient]. Qed.
(** Runs: three cold ones for cold_iter = 2, then kfac; with reads before and after. *)
Example demo_before : trainings 2 (nseq 5 (Reads false false false)) start =
  [:: Updates true None; Updates true None; Updates true (Some false); Updates false (Some true); Updates false (Some true)].
Proof. by []. Qed.
Example demo_after : trainings 2 (nseq 5 (Reads true true true)) start =
  [:: Updates true None; Updates true (Some true); Updates true (Some true); Updates false (Some true); Updates false (Some true)].
Proof. by []. Qed.
(** A mean of two, then a decayed average. *)
Example demo_stats : stats 2 (2%:R^-1) [:: 1%:M; 3%:R%:M; 4%:R%:M] = 3%:R%:M :> 'M[K]_1.
Proof.
rewrite -[_ :: _]/([:: 1%:M; 3%:R%:M] ++ [:: 4%:R%:M]) stats_decay // big_ord1 /= expr1 subnn expr0 scale1r !big_cons big_nil addr0.
rewrite -!raddfD /= !scale_scalar_mx -raddfD /=; congr (_%:M).
have H2 : 2%:R != 0 :> K by rewrite pnatr_eq0.
have -> : 1 - 2%:R^-1 = 2%:R^-1 :> K by apply: (mulfI H2); rewrite mulrBr mulr1 mulfV // -[X in X - _]/(1 + 1)%:R natrD addrK.
have H4 : 4%:R = 2%:R * 2%:R :> K by rewrite -natrM.
by rewrite -mulrS H4 mulKf // mulVf // -mulrS.
Qed.

(** A batch of two rows. *)
Example batch_demo : (0 < 2)%N /\ act_cov (const_mx 3%:R : 'M[K]_(2, 1)) (lshift 1 0) (lshift 1 0) = 9%:R.
Proof.
split=> //; have [H _] := activations (const_mx 3%:R : 'M[K]_(2, 1)) (isT : (0 < 2)%N).
by rewrite H !big_ord_recl big_ord0 !mxE addr0 -!natrM -natrD -[(_ + _)%N]/(9 * 2)%N natrM mulfK // pnatr_eq0.
Qed.
