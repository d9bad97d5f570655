(** What a stacked observation should be. *)
From Coq Require Import List Arith Bool QArith.
From Verif Require Import Stack_Model.
Import ListNotations.
Open Scope nat_scope.

Section Spec.
Context {A : Type} (zero : A).

(** The last [n] of the frames, oldest first, with zero frames before them when there are fewer. *)
Definition window {X} (n : nat) (z : X) (fs : list X) : list X := skipn (length fs) (repeat z n ++ fs).
(** The frames of the window side by side, row by row. *)
Definition stacked (m w n : nat) (fs : list (list (list A))) : list (list A) :=
  map (fun r => concat (map (fun f => nth r f []) (window n (repeat (repeat zero w) m) fs))) (seq 0 m).

(** The frames environment [i] has shown since its episode began. *)
Definition frames_after (i : nat) (fs : list (list (list A))) (e : sev) : list (list (list A)) :=
  match e with
  | SReset obs => [nth i obs []]
  | SStep obs dones _ => if nth i dones false then [nth i obs []] else fs ++ [nth i obs []]
  end.
Definition frames (i : nat) (es : list sev) : list (list (list A)) := fold_left (frames_after i) es [].

(** Observations of the announced shape from every environment. *)
Definition shaped (m w : nat) (f : list (list A)) : Prop := length f = m /\ Forall (fun row => length row = w) f.
Definition call_ok (envs m w : nat) (e : sev) : Prop :=
  match e with
  | SReset obs => length obs = envs /\ Forall (shaped m w) obs
  | SStep obs dones terms => length obs = envs /\ Forall (shaped m w) obs /\ length dones = envs /\ length terms = envs /\
                             Forall (fun t => forall f, t = Some f -> shaped m w f) terms
  end.
(** The terminal observation that belongs into the info of environment [i]. *)
Definition terminal_ok (m w n i : nat) (before : list sev) (e : sev) (infos : list (option (list (list A)))) : Prop :=
  match e with
  | SReset _ => infos = []
  | SStep obs dones terms => nth i infos None =
      if nth i dones false then match nth i terms None with Some t => Some (stacked m w n (frames i before ++ [t])) | None => None end
      else nth i terms None
  end.
End Spec.

(** Bounds of a row. *)
Definition in_row (lo hi row : list Q) : Prop := Forall2 Qle lo row /\ Forall2 Qle row hi.
