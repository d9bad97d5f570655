(** What the checks for nan and inf should do, without reference to the model's own computations. *)
From Coq Require Import List Arith ZArith QArith Bool.
From Verif Require Import NC_Model.
Import ListNotations.
Open Scope nat_scope.

(** An array that is to be reported as k: it holds an infinity, and those are asked for, or a nan. *)
Definition holds (inf : bool) (l : list num) (k : kind) : Prop :=
  match k with KInf => inf = true /\ (In PInf l \/ In NInf l) | KNan => In NaN l end.

Section Env.
Context {V I : Type}.
Variables (v_reset : V -> V * list num) (v_async : V -> list num -> V) (v_wait : V -> V * returned I).
(** What a call does to an environment that is not wrapped. *)
Definition direct (v : V) (k : call) : V * answer I :=
  match k with
  | CReset => (fst (v_reset v), AObs (snd (v_reset v)))
  | CAsync a => (v_async v a, ANone)
  | CWait => (fst (v_wait v), AStep (snd (v_wait v)))
  end.
Fixpoint directly (v : V) (ks : list call) : V * list (answer I) :=
  match ks with
  | [] => (v, [])
  | k :: t => (fst (directly (fst (direct v k)) t), snd (direct v k) :: snd (directly (fst (direct v k)) t))
  end.
(** The arrays that a call passes to the environment or gets from it. *)
Definition arrays (v : V) (k : call) : list (name * list num) :=
  match k with
  | CReset => [(Observations, snd (v_reset v))]
  | CAsync a => [(Actions, a)]
  | CWait => let '(o, r, n, _) := snd (v_wait v) in [(Observations, o); (Rewards, r); (News, n)]
  end.
(** The call has something to report. *)
Definition faulty (inf : bool) (v : V) (k : call) : Prop := exists n l q, In (n, l) (arrays v k) /\ holds inf l q.
(** The i-th call of a history has something to report. *)
Definition faulty_at (inf : bool) (v : V) (ks : list call) (i : nat) : Prop :=
  exists k, nth_error ks i = Some k /\ faulty inf (fst (directly v (firstn i ks))) k.
(** The actions of the step that is under way, or was the last one, since the last reset. *)
Fixpoint last_given (ks : list call) (d : option (list num)) : option (list num) :=
  match ks with [] => d | CReset :: t => last_given t None | CAsync a :: t => last_given t (Some a) | CWait :: t => last_given t d end.
(** The last observations returned. *)
Fixpoint last_seen (l : list (answer I)) (d : option (list num)) : option (list num) :=
  match l with [] => d | AObs o :: t => last_seen t (Some o) | AStep (o, _, _, _) :: t => last_seen t (Some o) | _ :: t => last_seen t d end.
End Env.

(** An environment is stepped although it has said that the episode is over. *)
Definition late (l : list event) : Prop := exists a b d, l = a ++ [Step true; Step d] ++ b.
Definition steps (l : list event) : nat := length (filter (fun e => match e with Step _ => true | Reset => false end) l).
Definition resets (l : list event) : nat := length (filter (fun e => match e with Reset => true | Step _ => false end) l).
Definition ends (l : list event) : nat := length (filter (fun e => match e with Step true => true | _ => false end) l).
