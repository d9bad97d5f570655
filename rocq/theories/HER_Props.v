(** C41: hindsight experience replay. *)
From Coq Require Import List Arith Bool QArith Permutation.
From Verif Require Import Base Replay_Model Replay_Spec HER_Model HER_Spec HER_Proofs HER_Demo.
Import ListNotations.
Open Scope nat_scope.

(** Any sequence of add calls succeeds.  Exactly the finished episodes have been written, each
    transition followed by its relabelled copies with goals its strategy allows, and the buffer holds
    the latest of them. *)
Theorem C41_stored : forall {X G Obs Act Info} (to_dict : Obs -> gdict X G) (of_dict : gdict X G -> Obs) (compute_reward : G -> G -> Info -> Q)
    (n_goals : nat) (strat : strategy) (draws : nat -> nat) (s : nat),
  (forall d, to_dict (of_dict d) = d) -> 1 <= s ->
  forall calls : list (@etr Obs Act Info),
  exists h hist, ofold (her_add to_dict of_dict compute_reward n_goals strat draws) (her_new s) calls = Some h /\
    written to_dict compute_reward strat n_goals s (fst (episodes [] calls)) hist /\ h_ep h = snd (episodes [] calls) /\
    length (storage (h_buf h)) = min (length hist) s /\ Permutation (storage (h_buf h)) (last_n (min (length hist) s) hist) /\
    (forall t, length hist - min (length hist) s <= t < length hist -> nth_error (storage (h_buf h)) (t mod s) = nth_error hist t).
Proof. exact @her_correct. Qed.
Print Assumptions C41_stored.

(** How many transitions are stored. *)
Theorem C41_count : forall {X G Obs Act Info} (to_dict : Obs -> gdict X G) (of_dict : gdict X G -> Obs) (compute_reward : G -> G -> Info -> Q)
    (n_goals : nat) (strat : strategy) (draws : nat -> nat) (s : nat),
  (forall d, to_dict (of_dict d) = d) -> 1 <= s ->
  forall calls : list (@etr Obs Act Info),
  exists h, ofold (her_add to_dict of_dict compute_reward n_goals strat draws) (her_new s) calls = Some h /\
    length (storage (h_buf h)) = min (list_sum (map (fun ep => contribution strat n_goals (length ep)) (fst (episodes [] calls)))) s.
Proof. exact @her_count. Qed.
Print Assumptions C41_count.

(** 'final' should take the goal achieved at the end of the episode; it takes that of the last
    state but one. *)
Theorem C41_final_refuted : exists (calls : list (@etr (gdict nat nat) nat unit)) h,
  ofold (her_add (fun o => o) (fun d => d) he_rew 1 Final (fun k => k)) (her_new 20) calls = Some h /\ fst (episodes [] calls) = [calls] /\
  (forall t, nth_error calls (length calls - 1) = Some t -> achieved_goal (e_next t) = 4) /\
  Forall (fun t : transition (gdict nat nat) nat => let '(o, a, r, o', d) := t in desired_goal o <> 4 /\ desired_goal o' <> 4) (storage (h_buf h)).
Proof. exact he_final. Qed.
Print Assumptions C41_final_refuted.
