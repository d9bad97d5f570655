(** Model of VecVideoRecorder (neorl/rl/baselines/shared/vec_env/vec_video_recorder.py). *)
From Coq Require Import List Arith Bool.
Import ListNotations.

(** The calls of a user: reset, or step with actions. *)
Inductive call (A : Type) := Reset | Step (a : A).
Arguments Reset {A}. Arguments Step {A} a.
Section Video.
(** The wrapped environments: states E, actions A; render gives a frame and changes nothing. *)
Context {E A F : Type}.
Variable reset : E -> E.
Variable step : E -> A -> E.
Variable render : E -> F.
Variable trigger : nat -> bool.
Variable video_length : nat.
(** The recorder (36-59).  [video]: the one being recorded, with the step_id in its name and its frames; the name is
    prefix-step-k-to-step-(k + video_length), so it is known by k.  [files]: the videos closed so far, the last one first. *)
Record recorder := Rec { env : E; step_id : nat; video : option (nat * list F); recorded_frames : nat; files : list (nat * list F) }.
(** __init__ (29-59). *)
Definition init (e : E) : recorder := Rec e 0 None 0 [].
(** close_video_recorder (99-103). *)
Definition close_video_recorder (r : recorder) : recorder :=
  Rec (env r) (step_id r) None 1 (match video r with Some v => v :: files r | None => files r end).
(** start_video_recorder (66-80). *)
Definition start_video_recorder (r : recorder) : recorder :=
  let r1 := close_video_recorder r in Rec (env r1) (step_id r1) (Some (step_id r1, [render (env r1)])) 1 (files r1).
(** reset (61-64) and step_wait (85-97). *)
Definition perform (r : recorder) (c : call A) : recorder :=
  match c with
  | Reset => start_video_recorder (Rec (reset (env r)) (step_id r) (video r) (recorded_frames r) (files r))
  | Step a =>
      let e := step (env r) a in
      let id := S (step_id r) in
      match video r with
      | Some (k, fs) =>
          let r2 := Rec e id (Some (k, fs ++ [render e])) (S (recorded_frames r)) (files r) in
          if video_length <? recorded_frames r2 then close_video_recorder r2 else r2
      | None =>
          let r1 := Rec e id None (recorded_frames r) (files r) in
          if trigger id then start_video_recorder r1 else r1
      end
  end.
Definition run (e : E) (l : list (call A)) : recorder := fold_left perform l (init e).
(** close (105-107), after the last call. *)
Definition close (r : recorder) : recorder := close_video_recorder r.
(** A file: a later video of the same name replaces an earlier one. *)
Definition file (r : recorder) (k : nat) : option (list F) := option_map snd (find (fun v => fst v =? k) (files r)).
End Video.
