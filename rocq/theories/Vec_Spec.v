(** What a vectorised environment should be. *)
From Coq Require Import List Arith Bool.
From Verif Require Import Vec_Model.
Import ListNotations.
Open Scope nat_scope.

Section Spec.
Context {St Act Obs Rew Info Req Val : Type}.
Context (env_step : St -> Act -> St * (Obs * Rew * bool * Info)) (env_reset : St -> St * Obs) (env_call : St -> Req -> St * Val).
Notation cmd := (@cmd Act Req).

(** One environment on its own: the answers to a list of commands. *)
Fixpoint answers (s : St) (cs : list cmd) : list msg :=
  match cs with [] => [] | c :: r => let '(s1, m) := handle env_step env_reset env_call s c in m :: answers s1 r end.
(** The life of one environment on its own, command by command: a step that does not end the episode returns
    what the environment returned; one that ends it resets the environment at once and returns the first
    observation of the next episode, keeping the last one of the old as terminal observation. *)
Inductive lives : St -> list cmd -> list (@msg Obs Rew Info Val) -> Prop :=
| lives_end s : lives s [] []
| lives_on s a s1 o r i cs ms : env_step s a = (s1, (o, r, false, i)) -> lives s1 cs ms -> lives s (CStep a :: cs) (MStep o r false i None :: ms)
| lives_over s a s1 o r i s2 o2 cs ms : env_step s a = (s1, (o, r, true, i)) -> env_reset s1 = (s2, o2) -> lives s2 cs ms ->
    lives s (CStep a :: cs) (MStep o2 r true i (Some o) :: ms)
| lives_reset s s1 o cs ms : env_reset s = (s1, o) -> lives s1 cs ms -> lives s (CReset :: cs) (MObs o :: ms)
| lives_call s q s1 v cs ms : env_call s q = (s1, v) -> lives s1 cs ms -> lives s (CCall q :: cs) (MVal v :: ms).
(** The commands of a run that go to environment [i]. *)
Definition commands (i : nat) (ps : list (nat * cmd)) : list cmd := map snd (filter (fun p => fst p =? i) ps).
(** All single commands of a run of calls, in the order of the environments within each call, and the
    answers environment [i] gave. *)
Definition all_pairs (n : nat) (ops : list (@vop Act Req)) : list (nat * cmd) := flat_map (op_pairs n) ops.
Definition answered (i : nat) (ps : list (nat * cmd)) (ms : list (@msg Obs Rew Info Val)) : list msg := map snd (filter (fun pm => fst (fst pm) =? i) (combine ps ms)).
(** Enough actions for every environment, and existing environments only. *)
Definition op_ok (n : nat) (op : @vop Act Req) : Prop :=
  match op with OStep acts => n <= length acts | OReset => True | OCall _ indices => Forall (fun i => i < n) indices end.
(** An upper bound for the number of moves. *)
Definition is_send (x : @instr Act Req) : bool := match x with Send _ _ => true | Recv _ => false end.
Definition work_bound (prog : list (@instr Act Req)) : nat := length prog + length (filter is_send prog).
End Spec.
