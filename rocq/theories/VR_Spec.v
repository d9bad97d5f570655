(** What C122 is stated with: time t is after the first t calls. *)
From Coq Require Import List Arith Bool.
From Verif Require Import VR_Model.
Import ListNotations.

(** The environments at time t, without any recorder. *)
Definition apply {E A} (reset : E -> E) (step : E -> A -> E) (e : E) (c : call A) : E := match c with Reset => reset e | Step a => step e a end.
Definition at_time {E A} (reset : E -> E) (step : E -> A -> E) (e : E) (l : list (call A)) (t : nat) : E := fold_left (apply reset step) (firstn t l) e.
(** The steps made up to time t. *)
Definition steps {A} (l : list (call A)) (t : nat) : nat := length (filter (fun c => match c with Step _ => true | Reset => false end) (firstn t l)).
(** Steps recorded after the first frame of a video that is not cut off. *)
Definition full (L : nat) : nat := Nat.max L 1.
(** A video (t, m) has the frames of the times t, ..., t + m. *)
Record videos {A} (trigger : nat -> bool) (L : nat) (l : list (call A)) (ws : list (nat * nat)) : Prop := Videos {
  v_time : forall t m, In (t, m) ws -> 1 <= t /\ t + m <= length l;
  (** it begins with a reset, or with a step at which the trigger says so *)
  v_begins : forall t m, In (t, m) ws -> nth_error l (t - 1) = Some Reset \/ (exists a, nth_error l (t - 1) = Some (Step a)) /\ trigger (steps l t) = true;
  (** it goes on with steps *)
  v_steps : forall t m j, In (t, m) ws -> t < j -> j <= t + m -> exists a, nth_error l (j - 1) = Some (Step a);
  v_length : forall t m, In (t, m) ws -> m <= full L;
  (** it is shorter only if a reset or the end of the run cuts it off *)
  v_full : forall t m, In (t, m) ws -> m = full L \/ nth_error l (t + m) = Some Reset \/ t + m = length l;
  (** videos follow each other *)
  v_order : ForallOrdPairs (fun a b => fst a + snd a < fst b) ws;
  (** every reset begins one *)
  v_reset : forall t, 1 <= t -> nth_error l (t - 1) = Some Reset -> exists m, In (t, m) ws;
  (** and every step at which the trigger says so, unless a video is being recorded *)
  v_trigger : forall t a, 1 <= t -> nth_error l (t - 1) = Some (Step a) -> trigger (steps l t) = true -> exists t0 m, In (t0, m) ws /\ t0 <= t <= t0 + m }.
(** A trigger for every L-th step. *)
Definition every (L : nat) (k : nat) : bool := k mod L =? 0.
