(** The chance of an action under the Gumbel-max trick, as an integral. *)
From Coquelicot Require Import Coquelicot.
From Coq Require Import List Arith ZArith Reals Lra Lia Bool.
From Verif Require Import PD_Model PD_Spec PD_Proofs PD_Race.
Import ListNotations.
Open Scope R_scope.

Lemma cat_chance : forall l i a, (i < length l)%nat -> 0 < a < 1 ->
  exists v, is_RInt (fun u => product (map (fun j => Rpower u (prob l j / prob l i)) (others (length l) i))) a 1 v /\ prob l i - a <= v <= prob l i.
Proof.
  intros l i a Hi Ha. assert (N : l <> []) by (destruct l; [cbn in Hi; lia|congruence]). pose proof (prob_pos l N i) as P. pose proof (prob_le_1 l i N Hi) as P1.
  set (p := prob l i) in *. exists (p * Rpower 1 (/ p) - p * Rpower a (/ p)). split.
  - apply (is_RInt_ext (fun u => Rpower u (/ p - 1))).
    { intros x [Hx _]. rewrite Rmin_left in Hx by lra. rewrite product_power' by lra. unfold p. rewrite others_ratio by assumption. reflexivity. }
    apply (is_RInt_derive (fun u => p * Rpower u (/ p)) (fun u => Rpower u (/ p - 1))).
    + intros x [Hx _]. rewrite Rmin_left in Hx by lra. apply is_derive_Reals.
      assert (D : derivable_pt_lim (fun u => p * Rpower u (/ p)) x (p * (/ p * Rpower x (/ p - 1)))).
      { apply (derivable_pt_lim_scal (fun u => Rpower u (/ p))). apply derivable_pt_lim_power. lra. }
      replace (Rpower x (/ p - 1)) with (p * (/ p * Rpower x (/ p - 1))) by (field; lra). exact D.
    + intros x [Hx _]. rewrite Rmin_left in Hx by lra. apply continuity_pt_filterlim. apply derivable_continuous_pt. exists ((/ p - 1) * Rpower x (/ p - 1 - 1)).
      apply derivable_pt_lim_power. lra.
  - assert (E : Rpower 1 (/ p) = 1) by (unfold Rpower; rewrite ln_1, Rmult_0_r; apply exp_0). rewrite E.
    assert (I : 1 <= / p) by (rewrite <- Rinv_1; apply Rinv_le_contravar; lra).
    assert (B : Rpower a (/ p) <= a).
    { rewrite <- (Rpower_1 a) at 2 by lra. unfold Rpower. destruct I as [I| <-]; [|lra]. left. apply exp_increasing.
      pose proof (neg_ln a Ha). assert (0 < (/ p - 1) * - ln a) by (apply Rmult_lt_0_compat; lra). lra. }
    assert (B0 : 0 < Rpower a (/ p)) by apply exp_pos.
    assert (p * Rpower a (/ p) <= 1 * a) by (apply Rmult_le_compat; lra).
    assert (0 < p * Rpower a (/ p)) by (apply Rmult_lt_0_compat; lra). lra.
Qed.
