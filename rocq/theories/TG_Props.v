(** Property C106: the segments of experience that TRPO and PPO1 learn from.  Only statements. *)
From Coq Require Import List Arith QArith Bool.
From Verif Require Import TG_Model TG_Spec TG_Proofs TG_Demo.
Import ListNotations.
Open Scope nat_scope.

(** C106: after n steps at which the callback goes on, (n - 1) / horizon segments have been given, and segment k has the observations, actions, values, rewards, ends and marks of the
    steps k * horizon, ..., (k + 1) * horizon - 1 of an agent that acts without segments, the value that follows its last step (0 after an end), and the returns and lengths of the episodes
    that end in it, also of those that began in an earlier segment. *)
Theorem C106_segments : forall (S A O P : Type) (ereset : S -> S) (enext : S -> A -> S) (obs_of : S -> O) (rew : S -> A -> Q) (done_of : S -> A -> bool) (info_r : S -> A -> option Q)
    (policy : nat -> O -> option (P * bool) -> A * Q * P) (p0 : P) (clip : A -> A) (giver : option (O -> A -> Q)) (is_vec : bool) (goes_on : nat -> bool) (horizon : nat),
  horizon <> 0 -> forall (s : S) (a0 : A) (n : nat), (forall u, u < n -> goes_on u = true) ->
  segments ereset enext obs_of rew done_of info_r policy p0 clip giver is_vec goes_on horizon true s a0 n =
  Some (map (segment_of ereset enext obs_of rew done_of info_r policy p0 clip giver is_vec horizon s) (seq 0 ((n - 1) / horizon))).
Proof. exact @segments_go. Qed.
Print Assumptions C106_segments.

(** C106: when the callback stops at step t, the segments before are whole and a last one follows, marked, with the rows, the episodes and the number of the steps before t; the row of
    step t itself has its observation, action, value and mark, but the reward and the end of step t - horizon, or zeros. *)
Theorem C106_stopped : forall (S A O P : Type) (ereset : S -> S) (enext : S -> A -> S) (obs_of : S -> O) (rew : S -> A -> Q) (done_of : S -> A -> bool) (info_r : S -> A -> option Q)
    (policy : nat -> O -> option (P * bool) -> A * Q * P) (p0 : P) (clip : A -> A) (giver : option (O -> A -> Q)) (is_vec : bool) (goes_on : nat -> bool) (horizon : nat),
  horizon <> 0 -> forall (s : S) (a0 : A) (t n : nat), (forall u, u < t -> goes_on u = true) -> goes_on t = false -> t < n ->
  exists g,
    segments ereset enext obs_of rew done_of info_r policy p0 clip giver is_vec goes_on horizon true s a0 n =
      Some (map (segment_of ereset enext obs_of rew done_of info_r policy p0 clip giver is_vec horizon s) (seq 0 (t / horizon)) ++ [g]) /\
    cut ereset enext obs_of rew done_of info_r policy p0 clip giver is_vec horizon s t g /\
    stale ereset enext obs_of rew done_of policy p0 clip giver is_vec horizon s t g.
Proof. exact @segments_cut. Qed.
Print Assumptions C106_stopped.

(** C106: "every row with an observation of a segment has the reward of that step" is false: stopped at step 3 with segments of two steps, the reward beside the observation of step 3 is that of
    step 1. *)
Theorem C106_last_row_refuted : exists g,
  gather 3 10 = Some (map (segment_of ereset enext (fun s => s) rew done_of info_r policy tt (fun a => a) None false 2 7) (seq 0 (3 / 2)) ++ [g]) /\
  ~ row (s_rew g) (3 mod 2) (rew_at ereset enext (fun s => s) rew done_of policy tt (fun a => a) None false 2 7 3).
Proof. exact wrong_reward. Qed.
Print Assumptions C106_last_row_refuted.

(** C106: "the actions of a segment are those of the policy learnt from the segments before it" is false: the first action of segment k + 1 depends only on the calls of the policy that were
    made before segment k was given, (k + 1) * horizon + k + 1 of them, so it is the action of the policy before the update. *)
Theorem C106_first_action_refuted : forall (S A O P : Type) (ereset : S -> S) (enext : S -> A -> S) (obs_of : S -> O) (done_of : S -> A -> bool)
    (p q : nat -> O -> option (P * bool) -> A * Q * P) (p0 : P) (clip : A -> A) (is_vec : bool) (horizon : nat) (s : S) (k : nat),
  horizon <> 0 -> (forall n o m, n < (k + 1) * horizon + (k + 1) -> p n o m = q n o m) ->
  act_at ereset enext obs_of done_of p p0 clip is_vec horizon s ((k + 1) * horizon) = act_at ereset enext obs_of done_of q p0 clip is_vec horizon s ((k + 1) * horizon).
Proof. exact @act_agree. Qed.
Print Assumptions C106_first_action_refuted.

(** C106: without a callback, or with a horizon of 0, nothing is given: the generator raises. *)
Theorem C106_raises : forall (S A O P : Type) (ereset : S -> S) (enext : S -> A -> S) (obs_of : S -> O) (rew : S -> A -> Q) (done_of : S -> A -> bool) (info_r : S -> A -> option Q)
    (policy : nat -> O -> option (P * bool) -> A * Q * P) (p0 : P) (clip : A -> A) (giver : option (O -> A -> Q)) (is_vec : bool) (goes_on : nat -> bool) (horizon : nat) (callback : bool) s a0 n,
  callback = false \/ horizon = 0 -> segments ereset enext obs_of rew done_of info_r policy p0 clip giver is_vec goes_on horizon callback s a0 n = None.
Proof. exact @segments_raise. Qed.
Print Assumptions C106_raises.
