(** HindsightExperienceReplayWrapper, neorl/rl/baselines/deepq/replay_buffer.py:36-184, around the
    replay buffer of Replay_Model.v.

    The wrapped environment (HERGoalEnvWrapper, not part of this repository) is given by arbitrary
    conversions between observations and dictionaries and an arbitrary reward function.  [draws k]
    is the [k]-th random draw of np.random.choice, reduced modulo the number of choices.  None
    stands for an exception.  deepcopy is the identity, as values are immutable here. *)
From Coq Require Import List Arith Bool QArith.
From Verif Require Import Base Opt_Model Space_Model Replay_Model.
Import ListNotations.
Open Scope nat_scope.

(** The observation of a goal environment as a dictionary. *)
Record gdict {X G : Type} : Type := GDict { g_obs : X; achieved_goal : G; desired_goal : G }.
Arguments gdict : clear implicits.
(** GoalSelectionStrategy, replay_buffer.py:7-23. *)
Inductive strategy : Type := Future | Final | Episode | Random.

Section HER.
Context {X G Obs Act Info : Type}.
Context (to_dict : Obs -> gdict X G) (of_dict : gdict X G -> Obs) (compute_reward : G -> G -> Info -> Q).
Context (n_goals : nat) (strat : strategy) (draws : nat -> nat).
Notation T := (transition Obs Act).

(** A transition as handed to add. *)
Record etr : Type := Etr { e_obs : Obs; e_act : Act; e_rew : Q; e_next : Obs; e_done : bool; e_info : Info }.
Definition stored_as (t : etr) : T := (e_obs t, e_act t, e_rew t, e_next t, e_done t).
Definition t_obs (t : T) : Obs := let '(o, _, _, _, _) := t in o.

Record her : Type := Her { h_ep : list etr; h_buf : buffer Obs Act; h_drawn : nat }.
Definition her_new (size : nat) : her := Her [] (new_buffer size) 0.

(** _sample_achieved_goal, replay_buffer.py:99-125. *)
Definition sample_goal (buf : buffer Obs Act) (ep : list etr) (idx k : nat) : option G :=
  let* o := match strat with
            | Future => let* i := choice (seq (idx + 1) (length ep - (idx + 1))) (draws k) in
                        let* t := nth_error ep i in Some (e_obs t)
            | Final => let* t := nth_error ep (length ep - 1) in Some (e_obs t)
            | Episode => let* i := choice (seq 0 (length ep)) (draws k) in
                         let* t := nth_error ep i in Some (e_obs t)
            | Random => let* i := choice (seq 0 (length (storage buf))) (draws k) in
                        let* t := nth_error (storage buf) i in Some (t_obs t)
            end in
  Some (achieved_goal (to_dict o)).
(** _sample_achieved_goals, replay_buffer.py:127-138. *)
Definition sample_goals (buf : buffer Obs Act) (ep : list etr) (idx k : nat) : option (list G) :=
  traverse (fun _ j => sample_goal buf ep idx (k + j)) 0 (seq 0 n_goals).
(** The artificial transition, replay_buffer.py:165-181. *)
Definition relabel (t : etr) (g : G) : T :=
  let d := to_dict (e_obs t) in
  let d' := to_dict (e_next t) in
  (of_dict (GDict _ _ (g_obs d) (achieved_goal d) g), e_act t, compute_reward (achieved_goal d') g (e_info t),
   of_dict (GDict _ _ (g_obs d') (achieved_goal d') g), false).
(** _store_episode, replay_buffer.py:140-184, from transition [idx] on. *)
Fixpoint store_from (ep : list etr) (idx : nat) (rest : list etr) (buf : buffer Obs Act) (k : nat) : option (buffer Obs Act * nat) :=
  match rest with
  | [] => Some (buf, k)
  | t :: rest =>
      let* buf1 := put buf (stored_as t) in
      if (idx =? length ep - 1) && match strat with Future => true | _ => false end then Some (buf1, k)
      else let* gs := sample_goals buf1 ep idx k in
           let* buf2 := ofold put buf1 (map (relabel t) gs) in
           store_from ep (S idx) rest buf2 (k + n_goals)
  end.
(** add, replay_buffer.py:63-81. *)
Definition her_add (h : her) (t : etr) : option her :=
  let ep := h_ep h ++ [t] in
  if e_done t then let* '(buf, k) := store_from ep 0 ep (h_buf h) (h_drawn h) in Some (Her [] buf k)
  else Some (Her ep (h_buf h) (h_drawn h)).
End HER.
