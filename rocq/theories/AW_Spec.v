(** Runs of an environment. *)
From Coq Require Import List Arith ZArith QArith Bool.
From Verif Require Import AW_Model.
Import ListNotations.
Open Scope nat_scope.

(** One call and its answer. *)
Inductive event (A O : Type) := Rst (o : O) | Stp (a : A) (o : O) (r : Q) (d : bool).
Arguments Rst {A O}. Arguments Stp {A O}.
Definition obs_of {A O} (x : event A O) : O := match x with Rst o => o | Stp _ o _ _ => o end.
Definition over {A O} (x : event A O) : bool := match x with Rst _ => false | Stp _ _ _ d => d end.
Definition reward_of {A O} (x : event A O) : Q := match x with Rst _ => 0%Q | Stp _ _ r _ => r end.
(** The calls an environment answers from one state to another. *)
Inductive run {S A O} (e : env S A O) : S -> list (event A O) -> S -> Prop :=
| run_nil s : run e s [] s
| run_reset s o s1 tr s' : ereset e s = Some (o, s1) -> run e s1 tr s' -> run e s (Rst o :: tr) s'
| run_step s a o r d s1 tr s' : estep e s a = Some (o, r, d, s1) -> run e s1 tr s' -> run e s (Stp a o r d :: tr) s'.
(** One step with an action, and a reset if it ended the episode. *)
Inductive piece {A O} (a : A) : list (event A O) -> Prop :=
| piece_on o r : piece a [Stp a o r false]
| piece_end o r o' : piece a [Stp a o r true; Rst o'].
(** No step after the end of an episode, given whether it is over. *)
Fixpoint legal {A O} (ended : bool) (tr : list (event A O)) : Prop :=
  match tr with [] => True | Rst _ :: u => legal false u | Stp _ _ _ d :: u => ended = false /\ legal d u end.
(** A caller that resets at the start and after each end, and only then. *)
Fixpoint disciplined {A O} (ended : bool) (tr : list (event A O)) : Prop :=
  match tr with [] => True | Rst _ :: u => ended = true /\ disciplined false u | Stp _ _ _ d :: u => ended = false /\ disciplined d u end.
(** An environment that keeps a record of its calls. *)
Definition recorded {S A O} (e : env S A O) : env (S * list (event A O)) A O :=
  mkEnv (fun w => bind (ereset e (fst w)) (fun '(o, s') => Some (o, (s', snd w ++ [Rst o]))))
        (fun w a => bind (estep e (fst w) a) (fun '(o, r, d, s') => Some (o, r, d, (s', snd w ++ [Stp a o r d])))).
(** The last n elements. *)
Definition lastn {X} (n : nat) (l : list X) : list X := skipn (length l - n) l.
(** The frames a stack of n shows over the steps of an episode, beside the steps below; l: the frames so far. *)
Inductive same_but {A O} (n : nat) : list O -> list (event A (list O)) -> list (event A O) -> Prop :=
| same_nil l : same_but n l [] []
| same_step l a o r d tr otr : same_but n (l ++ [o]) tr otr -> same_but n l (Stp a (lastn n (l ++ [o])) r d :: tr) (Stp a o r d :: otr).
(** Calls with one action, at most [skip] of them, up to the first that ends the episode; whether it ended. *)
Definition repeats {A O} (a : A) (skip : nat) (tr : list (event A O)) (d : bool) : Prop :=
  exists u x, tr = u ++ [x] /\ Forall (fun y => exists o r dd, y = Stp a o r dd) tr /\ length tr <= skip /\ Forall (fun y => over y = false) u /\ over x = d /\ (length tr < skip -> d = true).
