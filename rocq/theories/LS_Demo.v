(** Concrete cases for the theorems of LS_Props. *)
From Coq Require Import String List Arith ZArith Reals Lra Lia Permutation.
From Verif Require Import PD_Model LS_Model LS_Spec LS_Proofs LS_Loss LS_Ppo.
Import ListNotations.
Open Scope R_scope.

(** Two states, two actions; the second action is better in state 0, the first in state 1. *)
Definition dq (o : bool) : list R := if o then [3; 1] else [1; 2].
Definition dt (o : bool) : list R := if o then [0; 5] else [4; 2].
Lemma dq_sized : sized 2 dq. Proof. intros [|]; reflexivity. Qed.
Lemma dt_sized : sized 2 dt. Proof. intros [|]; reflexivity. Qed.
Lemma dq_nonempty : forall o, dq o <> []. Proof. intros [|]; discriminate. Qed.
(** Exploring at eps 1/2: the number 1/4 takes the random action 0, the number 3/4 the best action. *)
Example act_demo : exists acts e, fst (act dq (1 / 2) [false; false] true (-1) true [(1 / 4, 0%nat); (3 / 4, 0%nat)]) = Some acts /\ List.length acts = 2%nat /\ (e = 1 / 2 \/ e = snd (act dq (1 / 2) [false; false] true (-1) true [(1 / 4, 0%nat); (3 / 4, 0%nat)])) /\
  forall k o u rnd, nth_error [false; false] k = Some o -> nth_error [(1 / 4, 0%nat); (3 / 4, 0%nat)] k = Some (u, rnd) -> exists a, nth_error acts k = Some a /\ (u < e -> a = rnd) /\ (e <= u -> first_best (dq o) a).
Proof. exact (act_explore dq (1 / 2) [false; false] (-1) true [(1 / 4, 0%nat); (3 / 4, 0%nat)] (fun o _ => dq_nonempty o) eq_refl). Qed.
(** The call that sets eps to 1 may still act greedily: nothing orders the two. *)
Lemma late_demo : fst (act dq 0 [false] true 1 false [(1 / 4, 0%nat)]) = Some [1%nat] /\ snd (act dq 0 [false] true 1 false [(1 / 4, 0%nat)]) = 1.
Proof.
  unfold act, act_row, next_eps, dq. cbn [fst snd combine map]. unfold argmax, argmax_from, rlt.
  destruct (Rlt_dec 1 2); [|lra]. destruct (Rlt_dec (1 / 4) 0); [lra|]. destruct (Rle_dec 0 1); [|lra]. split; reflexivity.
Qed.
Definition drow : row bool := Row false 1%Z 1 true 0 1.
Example td_demo : exists M, largest (dt true) M /\ td_error 2 dq dt (9 / 10) false drow = Some (2 - (1 + 9 / 10 * (1 - 0) * M)).
Proof. exact (td_plain 2 dq dt (9 / 10) drow 1 ltac:(lia) dq_sized dt_sized eq_refl ltac:(lia)). Qed.
Example double_demo : exists i, first_best (dq true) i /\ td_error 2 dq dt (9 / 10) true drow = Some (2 - (1 + 9 / 10 * (1 - 0) * nth i (dt true) 0)).
Proof. exact (td_double 2 dq dt (9 / 10) drow 1 ltac:(lia) dq_sized dt_sized eq_refl ltac:(lia)). Qed.
(** One state, one action, reward 1, discount 1/2: the table with the value 2 has no error. *)
Definition uq (_ : unit) : list R := [2].
Definition ustep (_ : unit) (a : nat) : row unit := Row tt (Z.of_nat a) 1 tt 0 1.
Lemma uq_sized : sized 1 uq. Proof. intros []; reflexivity. Qed.
Example unique_demo : td_error 1 uq uq (1 / 2) false (ustep tt 0) = Some 0.
Proof.
  destruct (td_plain 1 uq uq (1 / 2) (ustep tt 0) 0 ltac:(lia) uq_sized uq_sized eq_refl ltac:(lia)) as [M [[[E|[]] _] F]]. rewrite F. cbn. f_equal. subst M. lra.
Qed.
(** The value 3 learnt for an action outside the space is never looked up. *)
Example outside_demo : exists t, bellman 2 dq dt (9 / 10) false (Row false 2%Z 1 true 0 1) = Some t /\ td_error 2 dq dt (9 / 10) false (Row false 2%Z 1 true 0 1) = Some (0 - t).
Proof. exact (td_outside 2 dq dt (9 / 10) false (Row false 2%Z 1 true 0 1) ltac:(lia) dq_sized dt_sized ltac:(cbn; lia)). Qed.
Example sync_demo : update_target (named "deepq/model/"%string [("w"%string, 1); ("b"%string, 2)]) (named "deepq/target_q_func/model/"%string [("b"%string, 0); ("w"%string, 0)])
  = [("deepq/target_q_func/model/b"%string, 2); ("deepq/target_q_func/model/w"%string, 1)].
Proof. reflexivity. Qed.
Example huber_demo : huber 1 3 = 25 / 10 /\ huber 1 (1 / 2) = 1 / 8.
Proof. split; [rewrite huber_right by lra; lra|rewrite huber_inside by lra; lra]. Qed.

Definition prow1 : prow := Prow 1 2 0 0 0 (3 / 2) 1.
Definition prow2 : prow := Prow (-1) 1 1 0 0 1 1.
Example first_demo : ppo_pg (1 / 5) [prow1; prow2] = - avg [1; -1] /\ ppo_kl [prow1; prow2] = 0 /\ ppo_clipfrac (1 / 5) [prow1; prow2] = 0.
Proof. apply (first_pass (1 / 5) [prow1; prow2]); [lra|discriminate|]. intros x [E|[E|[]]]; subst x; reflexivity. Qed.
(** An exact value, far from the old one, still costs. *)
Lemma exact_value_demo : 0 < ppo_vf (Some (1 / 5)) [Prow 0 2 0 0 0 2 0].
Proof.
  destruct (Rtotal_order 0 (ppo_vf (Some (1 / 5)) [Prow 0 2 0 0 0 2 0])) as [H|[H|H]]; [exact H| |].
  - symmetry in H. pose proof (proj1 (vf_zero (1 / 5) [Prow 0 2 0 0 0 2 0] ltac:(lra) ltac:(discriminate)) H) as W. destruct (W _ (or_introl eq_refl)) as [_ B]. cbn in B. rewrite Rabs_pos_eq in B; lra.
  - pose proof (proj1 (vf_facts (Some (1 / 5)) [Prow 0 2 0 0 0 2 0])) as A. unfold rmean in A. cbn in A. lra.
Qed.
Example advantages_demo : avg (advantages [3; 1] [1; 1]) = 0.
Proof. apply (advantages_facts [3; 1] [1; 1]); [discriminate|reflexivity]. Qed.
Example clip_demo : norm (clip_norm 1 [3; 4]) = Rmin (norm [3; 4]) 1.
Proof. apply (clip_norm_facts 1 [3; 4]). lra. Qed.
(** A batch of two rows, of which the second has its entropy raised. *)
Example entropy_demo : avg (map (fun x => p_ent x) [Prow 1 2 0 0 0 2 0; Prow 1 2 0 0 0 2 4]) = 2.
Proof. unfold avg. cbn. lra. Qed.
