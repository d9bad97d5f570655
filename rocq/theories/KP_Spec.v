(** Specification vocabulary for the knapsack environment. *)
From Coq Require Import List Arith ZArith QArith Bool.
From Verif Require Import Base KP_Model.
Import ListNotations.
Open Scope nat_scope.

(** Value and weight of object number [i] (from 1), of a list of objects. *)
Definition object (c : kconf) (i : nat) : Q * Q := nth (i - 1) (kc_objs c) (0, 0)%Q.
Definition total (f : nat -> Q) (l : list nat) : Q := fold_left (fun acc i => (acc + f i)%Q) l 0%Q.
Definition worth (c : kconf) (l : list nat) : Q := total (fun i => fst (object c i)) l.
Definition load (c : kconf) (l : list nat) : Q := total (fun i => snd (object c i)) l.

(** A problem: at least one object, no value 0 or -10^6 (the mark of an empty place), a sensible
    capacity and episode length. *)
Definition wf_kp (c : kconf) : Prop :=
  1 <= length (kc_objs c) /\ Forall (fun p => ~ (fst p == 0)%Q /\ ~ (fst p == sent)%Q) (kc_objs c) /\ (0 <= kc_cap c)%Q /\ 1 <= kc_len c.

(** Distinct objects of the problem. *)
Definition bag (c : kconf) (l : list nat) : Prop := NoDup l /\ forall i, In i l -> 1 <= i <= length (kc_objs c).

(** The actions name, one after the other, the objects [l] of [ids] (a prefix of the actions may do):
    an action is a position among the objects left; too large an action may stand for any of them. *)
Inductive chosen : list nat -> list nat -> list nat -> Prop :=
| chosen_nil ids acts : chosen ids acts []
| chosen_in ids a acts x l : nth_error ids a = Some x -> chosen (remove Nat.eq_dec x ids) acts l -> chosen ids (a :: acts) (x :: l)
| chosen_out ids a acts x l : length ids <= a -> In x ids -> chosen (remove Nat.eq_dec x ids) acts l -> chosen ids (a :: acts) (x :: l).

Definition objects (c : kconf) : list nat := seq 1 (length (kc_objs c)).

(** Histories of the list methods, and their number of steps. *)
Definition list_op (c : kconf) (o : kop) : Prop := match o with KList acts => length acts = length (kc_objs c) | KOne _ => False | KReset => True end.
Definition is_kstep (o : kop) : bool := match o with KReset => false | _ => true end.

(** Histories of the one-object methods in which resets happen only between bags; the state reached. *)
Inductive orderly (rnd : nat -> nat) (c : kconf) : kstate -> Prop :=
| orderly_new st : kp_new c = Some st -> orderly rnd c st
| orderly_step st a r st' : orderly rnd c st -> kp_step_one rnd c st a = Some (r, st') -> orderly rnd c st'
| orderly_reset st : orderly rnd c st -> k_list st = [] -> orderly rnd c (kp_reset c st).
