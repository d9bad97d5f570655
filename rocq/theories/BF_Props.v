(** The properties of the toy environments (C116).  Nothing else is stated here. *)
From Coq Require Import List Arith ZArith QArith Bool.
From Verif Require Import BF_Model BF_Spec BF_Proofs.
Import ListNotations.
Open Scope nat_scope.

(** C116: an action flips exactly the bit it names, a negative one counted from the end. *)
Theorem C116_flip : forall l z, (- Z.of_nat (length l) <= z < Z.of_nat (length l))%Z ->
  exists m, act l (One z) = Some m /\ flipped_at (Z.to_nat (if (z <? 0)%Z then z + Z.of_nat (length l) else z)) l m.
Proof. exact act_one. Qed.
Print Assumptions C116_flip.

(** C116: every other number raises. *)
Theorem C116_outside_raises : forall l z, act l (One z) = None <-> ~ (- Z.of_nat (length l) <= z < Z.of_nat (length l))%Z.
Proof. exact act_outside. Qed.
Print Assumptions C116_outside_raises.

(** C116: in the continuous variant exactly the bits with a positive entry are flipped. *)
Theorem C116_continuous : forall l m, length m = length l -> exists r, act l (Cont m) = Some r /\ length r = length l /\
  forall j, j < length l -> (0 < nth j m 0 -> nth j r false = negb (nth j l false))%Q /\ (nth j m 0 <= 0 -> nth j r false = nth j l false)%Q.
Proof.
  exact (fun l m L => match act_cont l m L with
    | ex_intro _ r (conj A (conj B C)) => ex_intro _ r (conj A (conj B (fun j J => conj
        (fun P => eq_trans (C j J) (f_equal (fun b : bool => if b then negb (nth j l false) else nth j l false) (proj2 (positive_iff _) P)))
        (fun N => eq_trans (C j J) (f_equal (fun b : bool => if b then negb (nth j l false) else nth j l false) (f_equal negb (proj2 (Qle_bool_iff _ _) N))))))) end).
Qed.
Print Assumptions C116_continuous.

(** C116: a step counts one; it succeeds exactly if all bits are ones, gives 0 then and -1 otherwise, and ends the
    episode on success and when the steps are used up; state and goals are observed in the same form. *)
Theorem C116_step : forall c s a s' o r d ok, b_step c s a = Some (s', o, r, d, ok) ->
  act (bits s) a = Some (bits s') /\ count s' = S (count s) /\ o = (convert c (bits s'), convert c (bits s'), convert c (repeat true (length (bits s')))) /\
  (ok = true <-> solved (bits s')) /\ r = (if ok then 0 else -1)%Z /\ (d = true <-> ok = true \/ b_max c <= count s').
Proof. exact step_spec. Qed.
Print Assumptions C116_step.

(** C116: the reward for any achieved and desired goal, as hindsight replay asks for it, is 0 if they are the same
    bits and -1 otherwise, also when they are given as numbers. *)
Theorem C116_reward : forall c l m, length l = length m ->
  (compute_reward (convert c l) (convert c m) = 0%Z <-> l = m) /\ (compute_reward (convert c l) (convert c m) = (-1)%Z <-> l <> m).
Proof. exact reward_facts. Qed.
Print Assumptions C116_reward.

(** C116: an episode never has more than max_steps steps and is over at max_steps; its return is minus the number
    of steps, one more on success. *)
Theorem C116_episode : forall c acts s n q d ok, play c s acts = Some (n, q, d, ok) -> n <= length acts /\ (d = false -> n = length acts) /\
  (1 <= b_max c -> count s < b_max c -> count s + n <= b_max c /\ (b_max c <= count s + length acts -> d = true)) /\ (ok = true -> d = true) /\ q = (if ok then 1 - Z.of_nat n else - Z.of_nat n)%Z.
Proof. exact play_ends. Qed.
Print Assumptions C116_episode.

(** C116: no sequence of single flips succeeds in fewer steps than there are zeros. *)
Theorem C116_least : forall c zs s n q d, play c s (map One zs) = Some (n, q, d, true) -> zeros (bits s) <= n.
Proof. exact play_least. Qed.
Print Assumptions C116_least.

(** C116: with at least two bits and the default number of steps every start can be solved: in as many steps as
    there are zeros, and in two from the goal itself. *)
Theorem C116_solvable : forall number l, 2 <= length l -> exists zs, Forall (fun x => 0 <= x < Z.of_nat (length l))%Z zs /\
  play (make (length l) None number) (fst (b_reset (make (length l) None number) l)) (map One zs) =
    Some (if zeros l =? 0 then 2 else zeros l, if zeros l =? 0 then (-1)%Z else (1 - Z.of_nat (zeros l))%Z, true, true).
Proof. exact solvable. Qed.
Print Assumptions C116_solvable.

(** C116: with one bit it cannot always be solved: from the goal no actions succeed. *)
Theorem C116_solvable_refuted : forall number zs n q d ok, play (make 1 None number) (fst (b_reset (make 1 None number) [true])) (map One zs) = Some (n, q, d, ok) -> ok = false.
Proof. exact one_bit. Qed.
Print Assumptions C116_solvable_refuted.

(** C116: in the continuous variant one step solves it from everywhere. *)
Theorem C116_one_shot : forall c s, exists m, length m = length (bits s) /\ play c s [Cont m] = Some (1, 0%Z, true, true).
Proof. exact one_shot. Qed.
Print Assumptions C116_one_shot.

(** C116: different bits are different numbers, ... *)
Theorem C116_numbers : forall l m, length l = length m -> encode l = encode m -> l = m.
Proof. exact encode_inj. Qed.
Print Assumptions C116_numbers.

(** C116: but the space declared for the numbers leaves out one of them, that of the goal, which is part of every
    observation. *)
Theorem C116_space_refuted : forall n l, length l = n -> (in_discrete n (encode l) = false <-> solved l).
Proof. exact outside_space. Qed.
Print Assumptions C116_space_refuted.

(** C116: in the identity environment the policy that repeats its observation gets a reward in every step of an
    episode of ep_length steps, ... *)
Theorem C116_copy : forall {X} matches ep draws (first : X), (forall x, matches x x = true) -> 1 <= ep -> ep <= length draws ->
  i_play matches ep (fun seen => last seen first) [first] (i_init first) draws = repeat (1%Z, false) (ep - 1) ++ [(1%Z, true)].
Proof. exact @copy_return. Qed.
Print Assumptions C116_copy.

(** C116: and no policy gets more. *)
Theorem C116_best : forall {X} matches ep pol draws seen (s : @istate X), i_step s < ep ->
  (0 <= total (map fst (i_play matches ep pol seen s draws)) <= Z.of_nat (ep - i_step s))%Z /\ length (i_play matches ep pol seen s draws) = Nat.min (ep - i_step s) (length draws).
Proof. exact @best_return. Qed.
Print Assumptions C116_best.

(** C116: with a Box the reward is given within eps of the state, bounds included. *)
Theorem C116_box : forall eps s a, box_matches eps s a = true <-> (s - eps <= a <= s + eps)%Q.
Proof. exact box_spec. Qed.
Print Assumptions C116_box.
