(** The properties of predict and action_probability (C96, C97).  Nothing else is stated here. *)
From Coq Require Import List Arith ZArith Reals Lra.
From Verif Require Import PD_Model PD_Spec LS_Spec AP_Model AP_Spec AP_Proofs AP_Prob AP_Batch.
Import ListNotations.
Open Scope R_scope.

(** C96: predict on one observation of the shape of the observation space answers one action: the network's,
    unchanged if the actions are not a Box, and kept within the bounds entry by entry if they are. *)
Theorem C96_single : forall {O} (step : list (list O) -> list (list R)) s a (data : list O) act, s <> OOther -> (0 < width s)%nat -> observations s [data] -> step [data] = [act] -> box_ok a act ->
  exists y, predict step false s a (oshape s) data = Some (One y) /\ bounded a act y.
Proof. exact @predict_one. Qed.
Print Assumptions C96_single.

(** C96: predict on a batch answers one action for each observation, in their order, each kept within the bounds. *)
Theorem C96_batch : forall {O} (step : list (list O) -> list (list R)) recurrent s a (rows : list (list O)), s <> OOther -> (0 < width s)%nat -> observations s rows ->
  Forall (box_ok a) (step rows) ->
  exists ys, predict step recurrent s a (length rows :: oshape s) (concat rows) = Some (Many ys) /\ Forall2 (bounded a) (step rows) ys.
Proof. exact @predict_batch. Qed.
Print Assumptions C96_batch.

(** C96: if the network treats every observation alone, a batch is answered as its observations would be one at
    a time. *)
Theorem C96_rowwise : forall {O} (f : list O -> list R) s a (rows : list (list O)), s <> OOther -> (0 < width s)%nat -> observations s rows ->
  exists ys, predict (map f) false s a (length rows :: oshape s) (concat rows) = Some (Many ys) /\
    Forall2 (fun r y => predict (map f) false s a (oshape s) r = Some (One y)) rows ys.
Proof. exact @predict_rowwise. Qed.
Print Assumptions C96_rowwise.

(** C96: an observation whose shape is neither that of the space nor that with one more dimension in front is
    refused, and so is every observation of another kind of space. *)
Theorem C96_shape_raises : forall {O} (step : list (list O) -> list (list R)) recurrent s a shape data, s = OOther \/ (shape <> oshape s /\ forall n, shape <> n :: oshape s) ->
  predict step recurrent s a shape data = None.
Proof. exact @predict_refused. Qed.
Print Assumptions C96_shape_raises.

(** C96: a recurrent policy cannot be asked about a single observation. *)
Theorem C96_recurrent_raises : forall {O} (step : list (list O) -> list (list R)) s a data, predict step true s a (oshape s) data = None.
Proof. exact @predict_recurrent. Qed.
Print Assumptions C96_recurrent_raises.

(** C96: DQN answers the first of the actions of largest value. *)
Theorem C96_dqn : forall {O} (q : list O -> list R) s data, s <> OOther -> (0 < width s)%nat -> observations s [data] -> q data <> [] ->
  exists i, dqn_predict q s (oshape s) data = Some (One i) /\ first_best (q data) i.
Proof. exact @dqn_one. Qed.
Print Assumptions C96_dqn.

(** C96: DQN answers a batch row by row. *)
Theorem C96_dqn_batch : forall {O} (q : list O -> list R) s rows, s <> OOther -> (0 < width s)%nat -> observations s rows -> (forall r, In r rows -> q r <> []) ->
  exists l, dqn_predict q s (length rows :: oshape s) (concat rows) = Some (Many l) /\ Forall2 (fun r i => first_best (q r) i) rows l.
Proof. exact @dqn_batch. Qed.
Print Assumptions C96_dqn_batch.

(** C96: DQN asked for a random action draws i exactly for the uniform numbers of an interval whose length is
    the probability of i under the softmax of the values. *)
Theorem C96_dqn_draw : forall q u i, q <> [] -> 0 <= u < 1 -> (dqn_draw q u = i <-> (i < length q)%nat /\ below q i <= u < below q (S i)).
Proof. exact dqn_draw_spec. Qed.
Print Assumptions C96_dqn_draw.

(** C96: the length of that interval. *)
Theorem C96_dqn_chance : forall q i, below q (S i) - below q i = prob q i.
Proof. exact below_step. Qed.
Print Assumptions C96_dqn_chance.

(** C96: a dueling network changes neither the best action nor the differences between actions, and the average
    of its values is the value of the state. *)
Theorem C96_dueling : forall v scores, scores <> [] ->
  avg (dueling v scores) = v /\ length (dueling v scores) = length scores /\
  (forall i j, (i < length scores)%nat -> (j < length scores)%nat -> nth i (dueling v scores) 0 - nth j (dueling v scores) 0 = nth i scores 0 - nth j scores 0) /\
  forall i, first_best (dueling v scores) i <-> first_best scores i.
Proof. exact dueling_facts. Qed.
Print Assumptions C96_dueling.

(** C96: with a sampled action, the likelihood that step gives beside it is that of this action. *)
Theorem C96_likelihood : forall logits u a nl, length u = length logits -> step_discrete logits u false = Some (a, nl) -> (a < length logits)%nat /\ exp (- nl) = prob logits a.
Proof. exact step_likelihood. Qed.
Print Assumptions C96_likelihood.

(** C96: with deterministic=True it is not the likelihood of the answered action: the best action is answered,
    and the likelihood beside it is that of an action sampled in the background, which can be any action. *)
Theorem C96_likelihood_refuted : forall logits i, (i < length logits)%nat -> exists u m nl, length u = length logits /\ Forall (fun x => 0 < x < 1) u /\
  step_discrete logits u true = Some (m, nl) /\ first_best logits m /\ exp (- nl) = prob logits i.
Proof. exact step_any. Qed.
Print Assumptions C96_likelihood_refuted.

(** C97: for a discrete action space action_probability gives the probability of the action under the policy. *)
Theorem C97_discrete : forall n flat a, (a < length flat)%nat -> action_probability (ADiscrete n) false false [flat] [Whole [Z.of_nat a]] false = Some (One (prob flat a)).
Proof. exact discrete_value. Qed.
Print Assumptions C97_discrete.

(** C97: for several discrete actions it gives the product of the probabilities. *)
Theorem C97_multi : forall nvec flat ls x, parts nvec flat ls -> nvec <> [] -> Forall2 (fun a n => (a < n)%nat) x nvec ->
  action_probability (AMulti nvec) false false [flat] [Whole (map Z.of_nat x)] false = Some (One (tuple_prob ls x)).
Proof. exact multi_value. Qed.
Print Assumptions C97_multi.

(** C97: for bits it gives the probability of all the bits. *)
Theorem C97_binary : forall flat x, In x (bits (length flat)) ->
  action_probability (ABinary (length flat)) false false [flat] [Whole (map Z.of_nat x)] false = Some (One (bits_prob flat x)).
Proof. exact binary_value. Qed.
Print Assumptions C97_binary.

(** C97: for a Box it gives a normal density with the policy's mean, whose standard deviation is not that of the
    policy: where the policy has the standard deviation d, here exp(s), it is exp(d / 2). *)
Theorem C97_box : forall lo hi ms ss x, length ss = length ms -> length x = length ms ->
  action_probability (ABox lo hi) false false [ms ++ ss] [Real x] false = Some (One (density ms (map (fun s => exp (exp s / 2)) ss) x)).
Proof. exact box_value. Qed.
Print Assumptions C97_box.

(** C97: so for no policy with an action in a Box is it the density the policy samples from: at the mean it is
    always strictly smaller. *)
Theorem C97_box_refuted : forall lo hi ms ss, length ss = length ms -> ms <> [] ->
  exists p, action_probability (ABox lo hi) false false [ms ++ ss] [Real ms] false = Some (One p) /\ 0 < p < density ms (map exp ss) ms.
Proof. exact box_wrong. Qed.
Print Assumptions C97_box_refuted.

(** C97: the answer with logp=True is the logarithm of the answer without, number by number. *)
Theorem C97_logp : forall s rc vec flats acts, action_probability s rc vec flats acts true = on_answer ln (action_probability s rc vec flats acts false).
Proof. exact logarithm. Qed.
Print Assumptions C97_logp.

(** C97: a batch of observations with as many actions is answered row by row. *)
Theorem C97_rowwise : forall s rc flats acts lp ps, length flats = length acts -> length ps = length acts ->
  (forall i flat act p, nth_error flats i = Some flat -> nth_error acts i = Some act -> nth_error ps i = Some p -> action_probability s false false [flat] [act] lp = Some (One p)) ->
  action_probability s rc true flats acts lp = Some (Many ps).
Proof. exact batch_rowwise. Qed.
Print Assumptions C97_rowwise.

(** C97: unless the actions are a Box, another number of actions than of observations is refused. *)
Theorem C97_sizes_raises : forall s rc vec flats acts lp, length flats <> length acts -> (match s with ABox _ _ => False | _ => True end) -> action_probability s rc vec flats acts lp = None.
Proof. exact batch_differs. Qed.
Print Assumptions C97_sizes_raises.

(** C97: in a Box, one observation with several actions is not refused: the answer is that for the first action,
    and the other actions are ignored. *)
Theorem C97_actions_refuted : forall lo hi ms ss x rest lp, length ss = length ms -> length x = length ms -> Forall (fun y => length y = length ms) rest ->
  action_probability (ABox lo hi) false false [ms ++ ss] (map Real (x :: rest)) lp = action_probability (ABox lo hi) false false [ms ++ ss] [Real x] lp.
Proof. exact box_first. Qed.
Print Assumptions C97_actions_refuted.

(** C97: a negative action, which is no action, is not refused: it is given the probability of an action counted
    from the end. *)
Theorem C97_negative_refuted : forall n flat k lp, (0 < k <= length flat)%nat ->
  action_probability (ADiscrete n) false false [flat] [Whole [(- Z.of_nat k)%Z]] lp = action_probability (ADiscrete n) false false [flat] [Whole [Z.of_nat (length flat - k)]] lp.
Proof. exact discrete_negative. Qed.
Print Assumptions C97_negative_refuted.

(** C97: every other number is refused. *)
Theorem C97_outside_raises : forall n flat a lp, (a < - Z.of_nat (length flat) \/ Z.of_nat (length flat) <= a)%Z -> action_probability (ADiscrete n) false false [flat] [Whole [a]] lp = None.
Proof. exact discrete_outside. Qed.
Print Assumptions C97_outside_raises.

(** C97: a recurrent policy cannot be asked about a single observation. *)
Theorem C97_recurrent_raises : forall s flats acts lp, action_probability s true false flats acts lp = None.
Proof. exact recurrent_single. Qed.
Print Assumptions C97_recurrent_raises.

(** C97: without actions, one observation of a discrete action space is answered by all its probabilities. *)
Theorem C97_whole : forall n flat, flat <> [] -> single_proba (ADiscrete n) flat = Some (Row (map (prob flat) (actions (length flat)))).
Proof. exact single_discrete. Qed.
Print Assumptions C97_whole.

(** C97: and of a space of bits by the probability of a one for each bit. *)
Theorem C97_whole_binary : forall n flat, single_proba (ABinary n) flat = Some (Row (map logistic flat)).
Proof. exact single_binary. Qed.
Print Assumptions C97_whole_binary.

(** C97: in a Box it is answered by the means alone, whatever the standard deviations. *)
Theorem C97_whole_box_refuted : forall lo hi ms ss, length ss = length ms -> single_proba (ABox lo hi) (ms ++ ss) = Some (Rows [ms]).
Proof. exact single_box. Qed.
Print Assumptions C97_whole_box_refuted.

(** C97: and with several discrete actions by the probabilities of the first one alone. *)
Theorem C97_whole_multi_refuted : forall n nvec flat l ls, parts (n :: nvec) flat (l :: ls) -> (0 < n)%nat -> single_proba (AMulti (n :: nvec)) flat = Some (Rows [map (prob l) (actions n)]).
Proof. exact single_multi. Qed.
Print Assumptions C97_whole_multi_refuted.

(** C97: without actions, a batch is answered by all probabilities of every row, *)
Theorem C97_batch : forall n flats, Forall (fun f => f <> []) flats ->
  proba_step (ADiscrete n) flats = Some (PRows (map (fun f => map (prob f) (actions (length f))) flats)).
Proof. exact batch_discrete. Qed.
Print Assumptions C97_batch.

(** C97: and in a Box by the means and the standard deviations of every row. *)
Theorem C97_batch_box : forall lo hi l, Forall (fun p => length (snd p) = length (fst p)) l ->
  proba_step (ABox lo hi) (map (fun p => fst p ++ snd p) l) = Some (PParts [map fst l; map (fun p => map exp (snd p)) l]).
Proof. exact batch_box. Qed.
Print Assumptions C97_batch_box.
