(** Theorems about the probability distributions over actions (C91 to C93). *)
From Coquelicot Require Import Coquelicot.
From Coq Require Import List Arith ZArith Reals.
From Verif Require Import PD_Model PD_Spec PD_Proofs PD_Race PD_Chance PD_Multi PD_Bern PD_Gauss PD_Final.
Import ListNotations.
Open Scope R_scope.

(** C91: the negative log-likelihood of an action of a Discrete space is that of its probability, which is
    exp of its logit over the sum of them. *)
Theorem C91_likelihood : forall l i, (i < length l)%nat -> exp (- cat_neglogp l (Z.of_nat i)) = prob l i.
Proof. exact cat_neglogp_final. Qed.
Print Assumptions C91_likelihood.

(** C91: over all actions these likelihoods add up to one. *)
Theorem C91_total : forall l, l <> [] -> total (map (fun i => exp (- cat_neglogp l (Z.of_nat i))) (actions (length l))) = 1.
Proof. exact cat_total. Qed.
Print Assumptions C91_total.

(** C91: the entropy is Shannon's entropy of these probabilities; it lies between 0 and log n and is log n
    exactly when all logits are equal. *)
Theorem C91_entropy : forall l, l <> [] -> cat_entropy l = shannon (length l) (prob l) /\ 0 <= cat_entropy l <= ln (INR (length l)) /\
  (cat_entropy l = ln (INR (length l)) <-> forall i j, (i < length l)%nat -> (j < length l)%nat -> nth i l 0 = nth j l 0).
Proof. exact cat_entropy_final. Qed.
Print Assumptions C91_entropy.

(** C91: kl is the Kullback-Leibler divergence; it is never negative and 0 exactly when the logits differ by
    a constant. *)
Theorem C91_kl : forall l m, l <> [] -> length m = length l ->
  cat_kl l m = divergence (length l) (prob l) (prob m) /\ 0 <= cat_kl l m /\ (cat_kl l m = 0 <-> exists c, m = map (fun x => x + c) l).
Proof. exact cat_kl_final. Qed.
Print Assumptions C91_kl.

(** C91: mode is an action with the largest probability, the first of them. *)
Theorem C91_mode : forall l, l <> [] -> exists i, cat_mode l = Some i /\ (i < length l)%nat /\
  (forall j, (j < length l)%nat -> prob l j <= prob l i) /\ (forall j, (j < i)%nat -> prob l j < prob l i).
Proof. exact cat_mode_spec. Qed.
Print Assumptions C91_mode.

(** C91: a sample is always an action, also when uniform numbers are 0. *)
Theorem C91_sample_valid : forall l u, l <> [] -> length u = length l -> exists i, cat_sample l u = Some i /\ (i < length l)%nat.
Proof. exact cat_sample_valid. Qed.
Print Assumptions C91_sample_valid.

(** C91: given its own uniform number, an action wins exactly when each other number is below a bound that
    depends on that number and the two probabilities. *)
Theorem C91_sample_iff : forall l u i, length u = length l -> Forall (fun x => 0 < x < 1) u -> (i < length l)%nat ->
  cat_sample l u = Some i <->
  (forall j, (j < i)%nat -> nth j u 0 < Rpower (nth i u 0) (prob l j / prob l i)) /\
  (forall j, (i < j < length l)%nat -> nth j u 0 <= Rpower (nth i u 0) (prob l j / prob l i)).
Proof. exact cat_sample_iff. Qed.
Print Assumptions C91_sample_iff.

(** C91: so the chance of an action is the integral of the product of these bounds over its own number.
    Over the numbers from a to 1 it differs from the probability by at most a, for every a. *)
Theorem C91_sample_chance : forall l i a, (i < length l)%nat -> 0 < a < 1 ->
  exists v, is_RInt (fun u => product (map (fun j => Rpower u (prob l j / prob l i)) (others (length l) i))) a 1 v /\ prob l i - a <= v <= prob l i.
Proof. exact cat_chance. Qed.
Print Assumptions C91_sample_chance.

(** C91: every action is sampled for some uniform numbers. *)
Theorem C91_sample_reaches : forall l i, (i < length l)%nat -> exists u, length u = length l /\ Forall (fun x => 0 < x < 1) u /\ cat_sample l u = Some i.
Proof. exact cat_reachable. Qed.
Print Assumptions C91_sample_reaches.

(** C91, what is not so: a number that is not an action has a likelihood, and it is one. *)
Theorem C91_outside_refuted : forall l x, ~ (0 <= x < Z.of_nat (length l))%Z -> cat_neglogp l x = 0.
Proof. exact cat_outside. Qed.
Print Assumptions C91_outside_refuted.

(** C92: the negative log-likelihood of a point of a Box is that of the product of the normal densities of
    its coordinates, with standard deviations exp of the logarithms given. *)
Theorem C92_likelihood : forall ms ss x, length ss = length ms -> length x = length ms ->
  exists v, gauss_neglogp (ms ++ ss) x = Some v /\ exp (- v) = density ms (map exp ss) x.
Proof. exact gauss_density. Qed.
Print Assumptions C92_likelihood.

(** C92: kl is never negative and 0 exactly for the same parameters. *)
Theorem C92_kl : forall ms ss ms' ss', length ss = length ms -> length ms' = length ms -> length ss' = length ms ->
  exists v, gauss_kl (ms ++ ss) (ms' ++ ss') = Some v /\ 0 <= v /\ (v = 0 <-> ms' = ms /\ ss' = ss).
Proof. exact gauss_kl_facts. Qed.
Print Assumptions C92_kl.

(** C92: the entropy is the average of the negative log-likelihood over any points with weights that have
    the means and standard deviations of the distribution. *)
Theorem C92_entropy_average : forall d ms ss nl0, length ss = length ms -> has_moments d ms (map exp ss) ->
  (forall w x, In (w, x) d -> gauss_neglogp (ms ++ ss) x = Some (nl0 x)) -> gauss_entropy (ms ++ ss) = Some (average d nl0).
Proof. exact gauss_average_final. Qed.
Print Assumptions C92_entropy_average.

(** C92: kl is the average over such points of the difference of the negative log-likelihoods. *)
Theorem C92_kl_average : forall d ms ss ms' ss' nl0 nl1, length ss = length ms -> length ms' = length ms -> length ss' = length ms -> has_moments d ms (map exp ss) ->
  (forall w x, In (w, x) d -> gauss_neglogp (ms ++ ss) x = Some (nl0 x) /\ gauss_neglogp (ms' ++ ss') x = Some (nl1 x)) ->
  gauss_kl (ms ++ ss) (ms' ++ ss') = Some (average d (fun x => nl1 x - nl0 x)).
Proof. exact gauss_kl_final. Qed.
Print Assumptions C92_kl_average.

(** C92: the mode is the mean, and no other point is as likely. *)
Theorem C92_mode : forall ms ss x vx, length ss = length ms -> length x = length ms -> gauss_neglogp (ms ++ ss) x = Some vx ->
  gauss_mode (ms ++ ss) = Some ms /\ exists vm, gauss_neglogp (ms ++ ss) ms = Some vm /\ vm <= vx /\ (vx = vm <-> x = ms).
Proof. exact gauss_mode_final. Qed.
Print Assumptions C92_mode.

(** C92: each coordinate of a sample is its mean plus its standard deviation times a normal number. *)
Theorem C92_sample : forall ms ss e, length ss = length ms -> length e = length ms ->
  exists x, gauss_sample (ms ++ ss) e = Some x /\ length x = length ms /\ forall j, (j < length ms)%nat -> nth j x 0 = nth j ms 0 + exp (nth j ss 0) * nth j e 0.
Proof. exact gauss_sample_spec. Qed.
Print Assumptions C92_sample.

(** C92: every point, inside the bounds of the Box or not, is sampled for some normal numbers. *)
Theorem C92_sample_anywhere : forall ms ss x, length ss = length ms -> length x = length ms -> exists e, length e = length ms /\ gauss_sample (ms ++ ss) e = Some x.
Proof. exact gauss_sample_hits. Qed.
Print Assumptions C92_sample_anywhere.

(** C92: a new policy has the outputs of its network as means and standard deviations 1. *)
Theorem C92_first : forall ms, gauss_mode (gauss_first ms) = Some ms /\
  forall x, length x = length ms -> gauss_sample (gauss_first ms) x = Some (map (fun p => fst p + snd p) (combine ms x)).
Proof. exact gauss_first_spec. Qed.
Print Assumptions C92_first.

(** C92: an odd number of parameters raises. *)
Theorem C92_odd_raises : forall flat x, Nat.even (length flat) = false -> gauss_neglogp flat x = None /\ gauss_entropy flat = None /\ gauss_mode flat = None.
Proof. exact gauss_odd. Qed.
Print Assumptions C92_odd_raises.

(** C92, what is not so: the entropy is not bounded below by 0, it can be any number. *)
Theorem C92_entropy_refuted : forall n v, (0 < n)%nat -> exists flat, length flat = (2 * n)%nat /\ gauss_entropy flat = Some v.
Proof. exact gauss_entropy_any. Qed.
Print Assumptions C92_entropy_refuted.

(** C93: the likelihood of a tuple of a MultiDiscrete space is the product of the probabilities of its
    entries; over all tuples these products add up to one. *)
Theorem C93_likelihood : forall nvec flat ls, parts nvec flat ls -> Forall (fun n => (0 < n)%nat) nvec -> nvec <> [] ->
  (forall x, In x (tuples nvec) -> exists v, multi_neglogp nvec flat (map Z.of_nat x) = Some v /\ exp (- v) = tuple_prob ls x) /\
  total (map (tuple_prob ls) (tuples nvec)) = 1.
Proof. exact multi_final. Qed.
Print Assumptions C93_likelihood.

(** C93: the entropy is the entropy of the probabilities of the tuples. *)
Theorem C93_entropy : forall nvec flat ls, parts nvec flat ls -> Forall (fun n => (0 < n)%nat) nvec -> nvec <> [] ->
  multi_entropy nvec flat = Some (- total (map (fun x => tuple_prob ls x * ln (tuple_prob ls x)) (tuples nvec))).
Proof. exact multi_entropy_spec. Qed.
Print Assumptions C93_entropy.

(** C93: kl is the divergence of the probabilities of the tuples, never negative, and 0 exactly when they
    are the same. *)
Theorem C93_kl : forall nvec flat other ls ms, parts nvec flat ls -> parts nvec other ms -> Forall (fun n => (0 < n)%nat) nvec -> nvec <> [] ->
  exists v, multi_kl nvec flat other = Some v /\ v = total (map (fun x => tuple_prob ls x * ln (tuple_prob ls x / tuple_prob ms x)) (tuples nvec)) /\
    0 <= v /\ (v = 0 <-> forall x, In x (tuples nvec) -> tuple_prob ls x = tuple_prob ms x).
Proof. exact multi_kl_spec. Qed.
Print Assumptions C93_kl.

(** C93: the mode is a tuple of the space, none is more likely. *)
Theorem C93_mode : forall nvec flat ls, parts nvec flat ls -> Forall (fun n => (0 < n)%nat) nvec -> nvec <> [] ->
  exists x, multi_mode nvec flat = Some x /\ In x (tuples nvec) /\ forall y, In y (tuples nvec) -> tuple_prob ls y <= tuple_prob ls x.
Proof. exact multi_mode_spec. Qed.
Print Assumptions C93_mode.

(** C93: a sample is a tuple of the space, each entry sampled from its part with numbers of its own. *)
Theorem C93_sample : forall nvec flat ls, parts nvec flat ls -> Forall (fun n => (0 < n)%nat) nvec -> nvec <> [] -> forall us, Forall2 (fun u l => length u = length l) us ls ->
  exists x, multi_sample nvec flat us = Some x /\ In x (tuples nvec) /\ Forall2 (fun lu a => cat_sample (fst lu) (snd lu) = Some a) (combine ls us) x.
Proof. exact multi_sample_spec. Qed.
Print Assumptions C93_sample.

(** C93: sizes that do not add up to the number of logits raise. *)
Theorem C93_size_raises : forall nvec flat, fold_right Nat.add 0%nat nvec <> length flat -> multi_entropy nvec flat = None /\ multi_mode nvec flat = None.
Proof. exact multi_wrong. Qed.
Print Assumptions C93_size_raises.

(** C93: the likelihood of a vector of a MultiBinary space is the product of the probabilities of its bits;
    over all vectors these products add up to one. *)
Theorem C93_bits_likelihood : forall l, (forall x, In x (bits (length l)) -> exp (- bern_neglogp l x) = bits_prob l x) /\ total (map (bits_prob l) (bits (length l))) = 1.
Proof. exact bern_final. Qed.
Print Assumptions C93_bits_likelihood.

(** C93: its entropy is that of these probabilities, between 0 and n log 2. *)
Theorem C93_bits_entropy : forall l, bern_entropy l = - total (map (fun x => bits_prob l x * ln (bits_prob l x)) (bits (length l))) /\ 0 <= bern_entropy l <= INR (length l) * ln 2.
Proof. exact bern_entropy_final. Qed.
Print Assumptions C93_bits_entropy.

(** C93: its kl is their divergence, never negative, and 0 exactly for the same logits. *)
Theorem C93_bits_kl : forall l m, length m = length l ->
  bern_kl l m = total (map (fun x => bits_prob l x * ln (bits_prob l x / bits_prob m x)) (bits (length l))) /\
  0 <= bern_kl l m /\ (bern_kl l m = 0 <-> m = l).
Proof. exact bern_kl_facts. Qed.
Print Assumptions C93_bits_kl.

(** C93: its mode is a vector of the space, none is more likely. *)
Theorem C93_bits_mode : forall l, In (bern_mode l) (bits (length l)) /\ forall y, In y (bits (length l)) -> bits_prob l y <= bits_prob l (bern_mode l).
Proof. exact bern_mode_spec. Qed.
Print Assumptions C93_bits_mode.

(** C93: a sample is a vector of the space, bit j is 1 exactly when its uniform number is below its
    probability. *)
Theorem C93_bits_sample : forall l u, length u = length l -> In (bern_sample l u) (bits (length l)) /\
  forall j, (j < length l)%nat -> (nth j (bern_sample l u) 0%nat = 1%nat <-> nth j u 0 < logistic (nth j l 0)).
Proof. exact bern_sample_spec. Qed.
Print Assumptions C93_bits_sample.
