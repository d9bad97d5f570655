(** The statistics of one run, entry by entry. *)
From mathcomp Require Import all_ssreflect all_algebra.
From Verif Require Import KF_Model KF_Spec.
Set Implicit Arguments. Unset Strict Implicit. Unset Printing Implicit Defensive.
Import GRing.Theory Num.Theory Order.Theory.
Local Open Scope ring_scope.

Section Entries.
Variable R : rcfType.
Lemma cov_entry b d (X : 'M[R]_(b, d)) i j : cov X i j = (\sum_k X k i * X k j) / b%:R.
Proof.
rewrite /cov !mxE mulrC; congr (_ / _); apply: eq_bigr => k _; by rewrite !mxE.
Qed.
Theorem activations b d (X : 'M[R]_(b, d)) : (0 < b)%N ->
  (forall i j, act_cov X (lshift 1 i) (lshift 1 j) = (\sum_k X k i * X k j) / b%:R) /\
  (forall i, act_cov X (lshift 1 i) (rshift d 0) = (\sum_k X k i) / b%:R /\ act_cov X (rshift d 0) (lshift 1 i) = (\sum_k X k i) / b%:R) /\
  act_cov X (rshift d 0) (rshift d 0) = 1.
Proof.
move=> Hb; split=> [i j|].
  rewrite /act_cov cov_entry; congr (_ / _); apply: eq_bigr => k _; by rewrite !row_mxEl.
split=> [i|].
  by split; rewrite /act_cov cov_entry; congr (_ / _); apply: eq_bigr => k _; rewrite row_mxEl row_mxEr mxE ?mulr1 ?mul1r.
rewrite /act_cov cov_entry (eq_bigr (fun _ => 1)); last by move=> k _; rewrite row_mxEr mxE mulr1.
rewrite sumr_const card_ord divff //; by rewrite pnatr_eq0 -lt0n.
Qed.
Theorem derivatives b d (Y : 'M[R]_(b, d)) i j : (0 < b)%N -> grad_cov Y i j = b%:R * \sum_k Y k i * Y k j.
Proof.
move=> Hb; have Hn : b%:R != 0 :> R by rewrite pnatr_eq0 -lt0n.
rewrite /grad_cov cov_entry (eq_bigr (fun k => (b%:R * b%:R) * (Y k i * Y k j))); last by move=> k _; rewrite !mxE mulrACA.
by rewrite -mulr_sumr mulrAC mulfK.
Qed.
End Entries.
