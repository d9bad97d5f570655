(** A concrete episode. *)
From Coq Require Import List Arith Lia Bool QArith.
From Verif Require Import Base Opt_Model Replay_Model HER_Model HER_Spec HER_Proofs.
Import ListNotations.
Open Scope nat_scope.

(** Observations are dictionaries already: position [n], goal 9; the reward is 1 when the goal is reached. *)
Definition he_obs (n : nat) : gdict nat nat := GDict _ _ n n 9.
Definition he_rew (a g : nat) (_ : unit) : Q := if a =? g then 1%Q else 0%Q.
Definition he_ep : list (@etr (gdict nat nat) nat unit) :=
  [Etr (he_obs 1) 7 0 (he_obs 2) false tt; Etr (he_obs 2) 7 0 (he_obs 3) false tt; Etr (he_obs 3) 7 0 (he_obs 4) true tt].
Notation he_run strat n calls := (ofold (her_add (fun o => o) (fun d => d) he_rew n strat (fun k => k)) (her_new 20) calls).
Example he_future : (let* h := he_run Future 2 he_ep in Some (map (fun t : transition (gdict nat nat) nat => let '(o, a, r, o', d) := t in (g_obs o, desired_goal o, r, g_obs o', d)) (storage (h_buf h)))) =
  Some [(1, 9, 0%Q, 2, false); (1, 2, 1%Q, 2, false); (1, 3, 0%Q, 2, false); (2, 9, 0%Q, 3, false); (2, 3, 1%Q, 3, false); (2, 3, 1%Q, 3, false); (3, 9, 0%Q, 4, true)].
Proof. reflexivity. Qed.
Example he_nothing : (let* h := he_run Final 2 (firstn 2 he_ep) in Some (length (storage (h_buf h)))) = Some 0.
Proof. reflexivity. Qed.

(** The goal reached at the end of the episode, 4, is never used; the goal of 'final' is 3, so that
    the copy of the last transition fails although the episode did reach its end. *)
Lemma he_final : exists calls h, he_run Final 1 calls = Some h /\ fst (episodes [] calls) = [calls] /\
  (forall t, nth_error calls (length calls - 1) = Some t -> achieved_goal (e_next t) = 4) /\
  Forall (fun t : transition (gdict nat nat) nat => let '(o, a, r, o', d) := t in desired_goal o <> 4 /\ desired_goal o' <> 4) (storage (h_buf h)).
Proof.
  exists he_ep. eexists. split; [vm_compute; reflexivity|]. split; [reflexivity|]. split; [intros t E; injection E as <-; reflexivity|].
  cbn [h_buf storage]. repeat (constructor; [cbn; split; discriminate|]). constructor.
Qed.
