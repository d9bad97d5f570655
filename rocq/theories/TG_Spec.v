(** What an agent that acts step after step sees, without arrays and segments. *)
From Coq Require Import List Arith QArith Bool.
From Verif Require Import TG_Model.
Import ListNotations.
Open Scope nat_scope.

Section Life.
  Context {S A O P : Type}.
  Variables (ereset : S -> S) (enext : S -> A -> S) (obs_of : S -> O) (rew : S -> A -> Q) (done_of : S -> A -> bool) (info_r : S -> A -> option Q).
  Variable policy : nat -> O -> option (P * bool) -> A * Q * P.
  Variables (p0 : P) (clip : A -> A) (giver : option (O -> A -> Q)) (is_vec : bool) (horizon : nat).
  (** Segments end before the steps horizon, 2 horizon, ... *)
  Definition boundary (t : nat) : bool := (0 <? t) && (t mod horizon =? 0).
  (** How many calls of the policy precede step t: one for each step before it, one more for each segment before it. *)
  Definition calls_before (t : nat) : nat := t + (t - 1) / horizon.
  (** State of the environment, state of the policy, whether the last step ended an episode. *)
  Fixpoint life (s : S) (t : nat) : S * P * bool :=
    match t with
    | 0 => (ereset s, p0, false)
    | Datatypes.S u =>
        let '(w, p, d) := life s u in
        let '(a, _, p') := policy (calls_before u) (obs_of w) (Some (p, d)) in
        let w' := enext w (clip a) in
        let d' := done_of w (clip a) in
        (if d' && negb is_vec then ereset w' else w', p', d')
    end.
  Definition world s t : S := fst (fst (life s t)).
  (** Observation, answer of the policy, action, reward, end of the episode at step t. *)
  Definition obs_at s t : O := obs_of (world s t).
  Definition answer_at s t : A * Q * P := policy (calls_before t) (obs_at s t) (Some (snd (fst (life s t)), snd (life s t))).
  Definition act_at s t : A := fst (fst (answer_at s t)).
  Definition true_at s t : Q := rew (world s t) (clip (act_at s t)).
  Definition rew_at s t : Q := match giver with Some f => f (obs_at s t) (clip (act_at s t)) | None => true_at s t end.
  Definition done_at s t : bool := done_of (world s t) (clip (act_at s t)).
  (** Whether step t is the first of an episode. *)
  Definition first_at s t : bool := match t with 0 => true | Datatypes.S u => done_at s u end.
  (** The value of the observation of step t: at the beginning of a segment (but the first) from a second call without state and mask. *)
  Definition value_at s t : Q :=
    if boundary t then snd (fst (policy (1 + calls_before t) (obs_at s t) None)) else snd (fst (answer_at s t)).
  (** The sum of f over the steps of an episode up to step t, and their number. *)
  Fixpoint since (s : S) (f : nat -> Q) (t : nat) : Q :=
    Qplus (match t with 0 => 0%Q | Datatypes.S u => if first_at s t then 0%Q else since s f u end) (f t).
  Fixpoint length_at (s : S) (t : nat) : nat := Datatypes.S (match t with 0 => 0 | Datatypes.S u => if first_at s t then 0 else length_at s u end).
  (** What is reported for an episode that ends with step t: the Monitor's return if there is one. *)
  Definition monitor_at s t : option Q := info_r (world s t) (clip (act_at s t)).
  Definition ret_at s t : Q := match giver, monitor_at s t with None, Some x => x | _, _ => since s (rew_at s) t end.
  Definition tret_at s t : Q := match monitor_at s t with Some x => x | None => since s (true_at s) t end.
  (** The steps of segment k = 0, 1, ... and those that end an episode. *)
  Definition steps_of (k : nat) : list nat := seq (k * horizon) horizon.
  Definition ends_in (s : S) (l : list nat) : list nat := filter (done_at s) l.
  (** The value after the last step of segment k: 0 if that step ended an episode. *)
  Definition next_of s k : Q := let t := (k + 1) * horizon in if first_at s t then 0%Q else snd (fst (answer_at s t)).
  Definition segment_of (s : S) (k : nat) : segment O A :=
    let l := steps_of k in
    Seg (map (obs_at s) l) (map (rew_at s) l) (map (done_at s) l) (map (first_at s) l) (map (true_at s) l) (map (value_at s) l) (map (act_at s) l)
      (next_of s k) (map (ret_at s) (ends_in s l)) (map (length_at s) (ends_in s l)) (map (tret_at s) (ends_in s l)) horizon true.
  (** Row i of a segment is f of the step. *)
  Definition row {X} (l : list X) (i : nat) (x : X) : Prop := nth_error l i = Some x.
  (** What a segment is that the callback cut at step t: the rows before that of step t are whole, and that of step t has the observation, the action, the value and the mark of
      step t, but not its reward and its end. *)
  Definition cut (s : S) (t : nat) (g : segment O A) : Prop :=
    let first := t - t mod horizon in let steps := seq first (t mod horizon) in
    (forall i, i < t mod horizon ->
      row (s_obs g) i (obs_at s (first + i)) /\ row (s_act g) i (act_at s (first + i)) /\ row (s_vpred g) i (value_at s (first + i)) /\ row (s_start g) i (first_at s (first + i)) /\
      row (s_rew g) i (rew_at s (first + i)) /\ row (s_true g) i (true_at s (first + i)) /\ row (s_done g) i (done_at s (first + i))) /\
    row (s_obs g) (t mod horizon) (obs_at s t) /\ row (s_act g) (t mod horizon) (act_at s t) /\ row (s_vpred g) (t mod horizon) (value_at s t) /\
    row (s_start g) (t mod horizon) (first_at s t) /\
    s_next g = (if first_at s t then 0%Q else value_at s t) /\
    s_rets g = map (ret_at s) (ends_in s steps) /\ s_lens g = map (length_at s) (ends_in s steps) /\ s_trues g = map (tret_at s) (ends_in s steps) /\
    s_total g = t mod horizon /\ s_continue g = false.
  (** The row of step t itself: what step t - horizon left there, or zeros. *)
  Definition stale (s : S) (t : nat) (g : segment O A) : Prop :=
    row (s_rew g) (t mod horizon) (if t <? horizon then 0%Q else rew_at s (t - horizon)) /\
    row (s_true g) (t mod horizon) (if t <? horizon then 0%Q else true_at s (t - horizon)) /\
    row (s_done g) (t mod horizon) (if t <? horizon then false else done_at s (t - horizon)).
End Life.
