(** What hindsight replay should store. *)
From Coq Require Import List Arith Bool QArith.
From Verif Require Import Base Replay_Model Replay_Spec HER_Model.
Import ListNotations.
Open Scope nat_scope.

Section Spec.
Context {X G Obs Act Info : Type}.
Context (to_dict : Obs -> gdict X G) (compute_reward : G -> G -> Info -> Q).
Notation T := (transition Obs Act).
Notation etr := (@etr Obs Act Info).

(** Finished episodes of a list of calls, and the transitions of the unfinished one. *)
Fixpoint episodes (cur : list etr) (calls : list etr) : list (list etr) * list etr :=
  match calls with
  | [] => ([], cur)
  | c :: r => if e_done c then (let '(es, p) := episodes [] r in ((cur ++ [c]) :: es, p)) else episodes (cur ++ [c]) r
  end.

(** [t'] is transition [t] with goal [g] instead of the desired one: reward recomputed, not final. *)
Definition relabelled (t : etr) (g : G) (t' : T) : Prop :=
  exists o o', t' = (o, e_act t, compute_reward (achieved_goal (to_dict (e_next t))) g (e_info t), o', false) /\
    to_dict o = GDict _ _ (g_obs (to_dict (e_obs t))) (achieved_goal (to_dict (e_obs t))) g /\
    to_dict o' = GDict _ _ (g_obs (to_dict (e_next t))) (achieved_goal (to_dict (e_next t))) g.

(** The goals a strategy may choose for transition number [i] of episode [ep], when [hist] has been
    written to a buffer of size [s]: always a goal achieved at the beginning of some transition. *)
Definition goal_of (strat : strategy) (s : nat) (hist : list T) (ep : list etr) (i : nat) (g : G) : Prop :=
  match strat with
  | Future => exists j t, i < j /\ nth_error ep j = Some t /\ g = achieved_goal (to_dict (e_obs t))
  | Final => exists t, nth_error ep (length ep - 1) = Some t /\ g = achieved_goal (to_dict (e_obs t))
  | Episode => exists j t, nth_error ep j = Some t /\ g = achieved_goal (to_dict (e_obs t))
  | Random => exists o a r o' d, In (o, a, r, o', d) (last_n s hist) /\ g = achieved_goal (to_dict o)
  end.
(** The number of artificial copies of transition [i]. *)
Definition copies (strat : strategy) (n : nat) (ep : list etr) (i : nat) : nat :=
  match strat with Future => if S i =? length ep then 0 else n | _ => n end.

(** What the first [i] transitions of the episode contribute. *)
Inductive blocks (strat : strategy) (n s : nat) (hist : list T) (ep : list etr) : nat -> list T -> Prop :=
| blocks_0 : blocks strat n s hist ep 0 []
| blocks_S i out t goals ts : blocks strat n s hist ep i out -> nth_error ep i = Some t ->
    length goals = copies strat n ep i ->
    Forall (goal_of strat s (hist ++ out ++ [(e_obs t, e_act t, e_rew t, e_next t, e_done t)]) ep i) goals ->
    Forall2 (relabelled t) goals ts ->
    blocks strat n s hist ep (S i) (out ++ (e_obs t, e_act t, e_rew t, e_next t, e_done t) :: ts).
(** What a list of finished episodes contributes. *)
Inductive written (strat : strategy) (n s : nat) : list (list etr) -> list T -> Prop :=
| written_0 : written strat n s [] []
| written_S eps ep hist out : written strat n s eps hist -> blocks strat n s hist ep (length ep) out ->
    written strat n s (eps ++ [ep]) (hist ++ out).
(** How many transitions an episode of length [l] contributes. *)
Definition contribution (strat : strategy) (n l : nat) : nat :=
  match strat with Future => l + (l - 1) * n | _ => l * (1 + n) end.
End Spec.
