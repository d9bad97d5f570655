(** Specification vocabulary for the tuners. *)
From Coq Require Import String List Arith ZArith QArith Bool.
From Verif Require Import Base Space_Model Space_Spec Tune_Model.
Import ListNotations.
Open Scope nat_scope.

(** One position in each list of values. *)
Definition positions {A} (ls : list (list A)) (js : list nat) : Prop := Forall2 (fun l j => j < length l) ls js.
(** The values at these positions. *)
Definition values_at {A} (ls : list (list A)) (js : list nat) (vs : list A) : Prop :=
  Forall2 (fun lj v => nth_error (fst lj) (snd lj) = Some v) (combine ls js) vs /\ length ls = length js.

(** Number of combinations, and the number of a combination when the last position runs fastest. *)
Definition count {A} (ls : list (list A)) : nat := fold_right (fun l n => length l * n) 1 ls.
Fixpoint rank {A} (ls : list (list A)) (js : list nat) : nat :=
  match ls, js with
  | _ :: r, j :: js' => j * count r + rank r js'
  | _, _ => 0
  end.

(** Lexicographic order. *)
Fixpoint lex (js ks : list nat) : Prop :=
  match js, ks with
  | j :: js', k :: ks' => j < k \/ j = k /\ lex js' ks'
  | _, _ => False
  end.

(** The score reported for case number [i] (from 0, named [i+1] for the user). *)
Definition reported (fit : list val -> option Q) (i : nat) (vals : list val) : cell :=
  match fit vals with Some q => CScore q | None => CFailed (S i) end.

(** A value a random case may have. *)
Definition allowed (r : rtype) (v : val) : Prop :=
  match r with
  | RInt lb ub => exists q, v = VNum q /\ is_int q /\ (lb <= q)%Q /\ (q <= ub)%Q
  | RFloat lb ub => exists q, v = VNum q /\ (lb <= q)%Q /\ (q <= ub)%Q
  | RGrid vals => In v vals
  | ROther => False
  end.
Definition wf_rtype (r : rtype) : Prop :=
  match r with
  | RInt lb ub => (lb <= ub)%Q /\ is_int lb /\ is_int ub
  | RFloat lb ub => (lb <= ub)%Q
  | RGrid vals => vals <> []
  | ROther => False
  end.
