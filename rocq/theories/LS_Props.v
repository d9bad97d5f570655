(** Theorems about acting with DQN and about the losses of DQN, PPO2 and A2C. *)
From Coq Require Import String List Arith ZArith Reals Permutation.
From Verif Require Import LS_Model LS_Spec LS_Proofs LS_Loss LS_Ppo LS_Total LS_Demo.
Import ListNotations.
Open Scope R_scope.

(** C94: without exploration DQN takes, for every observation, the first action with the largest value,
    whatever the exploration rate and the random numbers. *)
Theorem C94_greedy : forall {Obs} (q : Obs -> list R) eps obs upd after draws, (forall o, In o obs -> q o <> []) -> List.length draws = List.length obs ->
  exists acts, fst (act q eps obs false upd after draws) = Some acts /\ List.length acts = List.length obs /\
    forall k o, nth_error obs k = Some o -> exists a, nth_error acts k = Some a /\ first_best (q o) a.
Proof. exact @act_greedy. Qed.
Print Assumptions C94_greedy.

(** C94: with exploration an action is the random one exactly when its uniform number is below the exploration
    rate, the old one or the new one, and the best one otherwise. *)
Theorem C94_explore : forall {Obs} (q : Obs -> list R) eps obs upd after draws, (forall o, In o obs -> q o <> []) -> List.length draws = List.length obs ->
  exists acts e, fst (act q eps obs true upd after draws) = Some acts /\ List.length acts = List.length obs /\
    (e = eps \/ e = snd (act q eps obs true upd after draws)) /\
    forall k o u rnd, nth_error obs k = Some o -> nth_error draws k = Some (u, rnd) ->
      exists a, nth_error acts k = Some a /\ (u < e -> a = rnd) /\ (e <= u -> first_best (q o) a).
Proof. exact @act_explore. Qed.
Print Assumptions C94_explore.

(** C94: a call with a non-negative rate sets it, a call with a negative one keeps it. *)
Theorem C94_rate : forall {Obs} (q : Obs -> list R) eps obs st upd after draws,
  (0 <= upd -> snd (act q eps obs st upd after draws) = upd) /\ (upd < 0 -> snd (act q eps obs st upd after draws) = eps).
Proof. exact @act_eps. Qed.
Print Assumptions C94_rate.

(** C94: after any history of calls the rate is the last one given, 0 before the first. *)
Theorem C94_history : forall upds, last_given upds (eps_after upds).
Proof. exact eps_history. Qed.
Print Assumptions C94_history.

(** C94: a rate of 1 given with a call need not be in force for that call: the graph does not order the
    comparison after the assignment, and the action may be the greedy one although the number is below 1. *)
Theorem C94_new_rate_refuted : fst (act dq 0 [false] true 1 false [(1 / 4, 0%nat)]) = Some [1%nat] /\ snd (act dq 0 [false] true 1 false [(1 / 4, 0%nat)]) = 1.
Proof. exact late_demo. Qed.
Print Assumptions C94_new_rate_refuted.

(** C94: the error of a transition is Q(s,a) minus the reward plus the discounted largest target value of the
    next state. *)
Theorem C94_error : forall {Obs} n (q target : Obs -> list R) gamma x a, (0 < n)%nat -> sized n q -> sized n target -> r_act x = Z.of_nat a -> (a < n)%nat ->
  exists M, largest (target (r_next x)) M /\ td_error n q target gamma false x = Some (nth a (q (r_obs x)) 0 - (r_rew x + gamma * (1 - r_done x) * M)).
Proof. exact @td_plain. Qed.
Print Assumptions C94_error.

(** C94: with double Q the next action is the best one of the online network and its value that of the target
    network. *)
Theorem C94_double : forall {Obs} n (q target : Obs -> list R) gamma x a, (0 < n)%nat -> sized n q -> sized n target -> r_act x = Z.of_nat a -> (a < n)%nat ->
  exists i, first_best (q (r_next x)) i /\ td_error n q target gamma true x = Some (nth a (q (r_obs x)) 0 - (r_rew x + gamma * (1 - r_done x) * nth i (target (r_next x)) 0)).
Proof. exact @td_double. Qed.
Print Assumptions C94_double.

(** C94: when the episode ended nothing of the next state enters. *)
Theorem C94_terminal : forall {Obs} n (q target : Obs -> list R) gamma double_q x a, (0 < n)%nat -> sized n q -> sized n target -> r_act x = Z.of_nat a -> (a < n)%nat -> r_done x = 1 ->
  td_error n q target gamma double_q x = Some (nth a (q (r_obs x)) 0 - r_rew x).
Proof. exact @td_terminal. Qed.
Print Assumptions C94_terminal.

(** C94: the target of double Q is never above the plain one, and is the same when both networks agree on the
    next state. *)
Theorem C94_double_below : forall {Obs} n (q target : Obs -> list R) gamma x, (0 < n)%nat -> sized n q -> sized n target -> 0 <= gamma -> 0 <= r_done x <= 1 ->
  exists d p, bellman n q target gamma true x = Some d /\ bellman n q target gamma false x = Some p /\ d <= p /\ (q (r_next x) = target (r_next x) -> d = p).
Proof. exact @double_below. Qed.
Print Assumptions C94_double_below.

(** C94: two target networks that differ by at most D give targets that differ by at most gamma D. *)
Theorem C94_contraction : forall {Obs} n (q t1 t2 : Obs -> list R) gamma double_q x D, (0 < n)%nat -> sized n q -> sized n t1 -> sized n t2 -> 0 <= gamma -> 0 <= r_done x <= 1 ->
  (forall i, (i < n)%nat -> Rabs (nth i (t1 (r_next x)) 0 - nth i (t2 (r_next x)) 0) <= D) ->
  exists a b, bellman n q t1 gamma double_q x = Some a /\ bellman n q t2 gamma double_q x = Some b /\ Rabs (a - b) <= gamma * D.
Proof. exact @contraction. Qed.
Print Assumptions C94_contraction.

(** C94: with rewards up to r and target values up to r/(1-gamma) the targets stay up to r/(1-gamma). *)
Theorem C94_bounded : forall {Obs} n (q target : Obs -> list R) gamma double_q x r, (0 < n)%nat -> sized n q -> sized n target -> 0 <= gamma < 1 -> 0 <= r_done x <= 1 -> Rabs (r_rew x) <= r ->
  (forall i, (i < n)%nat -> Rabs (nth i (target (r_next x)) 0) <= r / (1 - gamma)) ->
  exists t, bellman n q target gamma double_q x = Some t /\ Rabs t <= r / (1 - gamma).
Proof. exact @bounded. Qed.
Print Assumptions C94_bounded.

(** C94: at most one table of values has no error on all transitions of a deterministic environment, among
    those that differ by a bounded amount. *)
Theorem C94_unique : forall {Obs} n (step : Obs -> nat -> row Obs) (q1 q2 : Obs -> list R) gamma double_q D, (0 < n)%nat -> sized n q1 -> sized n q2 -> 0 <= gamma < 1 ->
  (forall o a, (a < n)%nat -> r_obs (step o a) = o /\ r_act (step o a) = Z.of_nat a /\ 0 <= r_done (step o a) <= 1) ->
  (forall o a, (a < n)%nat -> td_error n q1 q1 gamma double_q (step o a) = Some 0 /\ td_error n q2 q2 gamma double_q (step o a) = Some 0) ->
  (forall o a, (a < n)%nat -> Rabs (nth a (q1 o) 0 - nth a (q2 o) 0) <= D) ->
  forall o, q1 o = q2 o.
Proof. exact @unique_table. Qed.
Print Assumptions C94_unique.

(** C94: an action outside the space raises nothing: its value is read as 0. *)
Theorem C94_outside_refuted : forall {Obs} n (q target : Obs -> list R) gamma double_q x, (0 < n)%nat -> sized n q -> sized n target -> ~ (0 <= r_act x < Z.of_nat n)%Z ->
  exists t, bellman n q target gamma double_q x = Some t /\ td_error n q target gamma double_q x = Some (0 - t).
Proof. exact @td_outside. Qed.
Print Assumptions C94_outside_refuted.

(** C94: the loss of one error: not negative, 0 only without error, at most half the square and at most delta
    times the size, the same for both signs. *)
Theorem C94_huber : forall d x, 0 < d -> 0 <= huber d x /\ (huber d x = 0 <-> x = 0) /\ huber d x <= x * x / 2 /\ huber d x <= d * Rabs x /\ huber d (- x) = huber d x.
Proof. exact huber_facts. Qed.
Print Assumptions C94_huber.

(** C94: its slope is the error kept within -delta and delta, at every error. *)
Theorem C94_slope : forall d x, 0 < d -> derivable_pt_lim (huber d) x (clip x (- d) d) /\ kept_within x (- d) d (clip x (- d) d).
Proof. exact (fun d x D => conj (huber_slope d x D) (clip_within x (- d) d (Rle_trans _ 0 _ (Rlt_le _ _ (Ropp_lt_gt_0_contravar d D)) (Rlt_le _ _ D)))). Qed.
Print Assumptions C94_slope.

(** C94: the loss of a batch is not negative, and with positive weights 0 only when there is no error at all. *)
Theorem C94_batch : forall errs ws, List.length ws = List.length errs -> errs <> [] -> Forall (fun w => 0 <= w) ws ->
  0 <= weighted_error errs ws /\ (Forall (fun w => 0 < w) ws -> (weighted_error errs ws = 0 <-> Forall (fun e => e = 0) errs)).
Proof. exact weighted_facts. Qed.
Print Assumptions C94_batch.

(** C94: copying gives every variable of the target network the value of the variable of the same name below
    its own prefix, in whatever order the two networks list their variables. *)
Theorem C94_copy : forall {V} p t (vars targets : list (string * V)), NoDup (map fst vars) -> Permutation (map fst vars) (map fst targets) ->
  map fst (update_target (named p vars) (named t targets)) = map fst (named t targets) /\
  forall n v, In (n, v) vars -> In ((t ++ n)%string, v) (update_target (named p vars) (named t targets)).
Proof. exact @sync_spec. Qed.
Print Assumptions C94_copy.

(** C95: the policy loss of PPO2 for one row: with a positive advantage the ratio counts up to 1+c, with a
    negative one from 1-c on. *)
Theorem C95_surrogate : forall adv old new c, 0 <= c ->
  (0 <= adv -> ppo_pg1 adv old new c = - (adv * Rmin (exp (old - new)) (1 + c))) /\
  (adv <= 0 -> ppo_pg1 adv old new c = - (adv * Rmax (exp (old - new)) (1 - c))).
Proof. exact pg1_cases. Qed.
Print Assumptions C95_surrogate.

(** C95: the policy loss of a batch is never below the unclipped one, and is the unclipped one while all ratios
    stay within the range. *)
Theorem C95_pessimistic : forall c l, 0 <= c -> avg (map (fun x => - (p_adv x * exp (p_old x - p_new x))) l) <= ppo_pg c l /\
  ((forall x, In x l -> 1 - c <= exp (p_old x - p_new x) <= 1 + c) -> ppo_pg c l = avg (map (fun x => - (p_adv x * exp (p_old x - p_new x))) l)).
Proof. exact pg_pessimistic. Qed.
Print Assumptions C95_pessimistic.

(** C95: the loss of a row pushes the likelihood up for a positive advantage and down for a negative one, but no
    longer once the ratio has left the range on that side. *)
Theorem C95_push : forall adv old new c, 0 <= c ->
  (0 < adv -> 1 + c < exp (old - new) -> derivable_pt_lim (fun x => ppo_pg1 adv old x c) new 0) /\
  (adv < 0 -> exp (old - new) < 1 - c -> derivable_pt_lim (fun x => ppo_pg1 adv old x c) new 0) /\
  (0 < adv -> exp (old - new) < 1 + c -> derivable_pt_lim (fun x => ppo_pg1 adv old x c) new (adv * exp (old - new))) /\
  (adv < 0 -> 1 - c < exp (old - new) -> derivable_pt_lim (fun x => ppo_pg1 adv old x c) new (adv * exp (old - new))).
Proof. exact pg1_slope. Qed.
Print Assumptions C95_push.

(** C95: on the first pass over the data the policy loss is minus the mean advantage, the approximate divergence
    and the clipped fraction are 0. *)
Theorem C95_first : forall c l, 0 < c -> l <> [] -> (forall x, In x l -> p_new x = p_old x) ->
  ppo_pg c l = - avg (map p_adv l) /\ ppo_kl l = 0 /\ ppo_clipfrac c l = 0.
Proof. exact first_pass. Qed.
Print Assumptions C95_first.

(** C95: there PPO2 pushes each row exactly as A2C does. *)
Theorem C95_like_a2c : forall adv ret oldv old v ent c, 0 < c ->
  derivable_pt_lim (fun x => ppo_pg c [Prow adv ret oldv old x v ent]) old adv /\ derivable_pt_lim (fun x => a2c_pg [Prow adv ret oldv old x v ent]) old adv.
Proof. exact single_slope. Qed.
Print Assumptions C95_like_a2c.

(** C95: the value loss is at least half the mean squared error, and is that while every value stays within the
    range of the old one, or without a range. *)
Theorem C95_value : forall cv l, 5 / 10 * avg (map (fun x => (p_v x - p_ret x) * (p_v x - p_ret x)) l) <= ppo_vf cv l /\
  ((forall c, cv = Some c -> 0 <= c /\ forall x, In x l -> Rabs (p_v x - p_oldv x) <= c) -> ppo_vf cv l = 5 / 10 * avg (map (fun x => (p_v x - p_ret x) * (p_v x - p_ret x)) l)).
Proof. exact vf_facts. Qed.
Print Assumptions C95_value.

(** C95: with a range the value loss is 0 exactly when every value is the return and is within the range of the
    old value. *)
Theorem C95_value_zero : forall c l, 0 <= c -> l <> [] -> (ppo_vf (Some c) l = 0 <-> forall x, In x l -> p_v x = p_ret x /\ Rabs (p_v x - p_oldv x) <= c).
Proof. exact vf_zero. Qed.
Print Assumptions C95_value_zero.

(** C95: so exact values can still cost. *)
Theorem C95_exact_value_refuted : 0 < ppo_vf (Some (1 / 5)) [Prow 0 2 0 0 0 2 0].
Proof. exact exact_value_demo. Qed.
Print Assumptions C95_exact_value_refuted.

(** C95: the value loss of A2C is twice the unclipped one of PPO2, for the same coefficient. *)
Theorem C95_a2c_value : forall l, a2c_vf l = 2 * ppo_vf None l.
Proof. exact a2c_twice. Qed.
Print Assumptions C95_a2c_value.

(** C95: the approximate divergence is not negative, and 0 only for the same likelihoods. *)
Theorem C95_divergence : forall l, l <> [] -> 0 <= ppo_kl l /\ (ppo_kl l = 0 <-> forall x, In x l -> p_new x = p_old x).
Proof. exact kl_facts. Qed.
Print Assumptions C95_divergence.

(** C95: the reported clipped fraction is the share of rows whose ratio is more than c away from 1. *)
Theorem C95_fraction : forall c l, ppo_clipfrac c l = share (fun x => c < Rabs (exp (p_old x - p_new x) - 1)) (fun x => Rlt_dec _ _) l.
Proof. exact clipfrac_share. Qed.
Print Assumptions C95_fraction.

(** C95: the advantages of a batch have mean 0 and mean square below 1, keep the order, and are all 0 exactly
    when all differences between return and value are the same. *)
Theorem C95_advantages : forall rets vals, rets <> [] -> List.length vals = List.length rets ->
  let a := advantages rets vals in
  List.length a = List.length rets /\ avg a = 0 /\ avg (map (fun x => x * x) a) < 1 /\
  (forall i j, (i < List.length rets)%nat -> (j < List.length rets)%nat -> (nth i a 0 < nth j a 0 <-> nth i rets 0 - nth i vals 0 < nth j rets 0 - nth j vals 0)) /\
  ((forall i, (i < List.length rets)%nat -> nth i a 0 = 0) <-> (forall i j, (i < List.length rets)%nat -> (j < List.length rets)%nat -> nth i rets 0 - nth i vals 0 = nth j rets 0 - nth j vals 0)).
Proof. exact advantages_facts. Qed.
Print Assumptions C95_advantages.

(** C95: a minibatch of one row always has the advantage 0, so its policy loss is 0 whatever the policy: such
    minibatches teach the policy nothing. *)
Theorem C95_single_refuted : forall r v, advantages [r] [v] = [0] /\ forall old new c, ppo_pg1 0 old new c = 0.
Proof. exact (fun r v => conj (advantage_single r v) pg1_zero). Qed.
Print Assumptions C95_single_refuted.

(** C95: clipped gradients have the norm of the gradients or the limit, whichever is smaller, are unchanged
    below the limit and keep their direction. *)
Theorem C95_gradients : forall c g, 0 < c -> norm (clip_norm c g) = Rmin (norm g) c /\ (norm g <= c -> clip_norm c g = g) /\ exists k, 0 < k <= 1 /\ clip_norm c g = map (fun x => k * x) g.
Proof. exact clip_norm_facts. Qed.
Print Assumptions C95_gradients.

(** C95: in the whole loss entropy is rewarded: raising the entropies of the rows lowers the loss of PPO2 and of
    A2C by the coefficient times the mean rise, and changes nothing else. *)
Theorem C95_entropy : forall c cv e v (f : prow -> R) l,
  let risen := map (fun x => Prow (p_adv x) (p_ret x) (p_oldv x) (p_old x) (p_new x) (p_v x) (p_ent x + f x)) l in
  ppo_loss c cv e v risen = ppo_loss c cv e v l - e * avg (map f l) /\ a2c_loss e v risen = a2c_loss e v l - e * avg (map f l).
Proof. exact more_entropy. Qed.
Print Assumptions C95_entropy.

(** C95: and the share of the value function is its coefficient times the mean squared error in A2C, and times
    half of it in PPO2 without clipping of values. *)
Theorem C95_value_share : forall c e v l,
  ppo_loss c None e v l - ppo_loss c None e 0 l = v / 2 * avg (map (fun x => (p_v x - p_ret x) * (p_v x - p_ret x)) l) /\
  a2c_loss e v l - a2c_loss e 0 l = v * avg (map (fun x => (p_v x - p_ret x) * (p_v x - p_ret x)) l).
Proof. exact value_share. Qed.
Print Assumptions C95_value_share.
