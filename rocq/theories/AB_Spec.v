(** Windows of a history; episodes of a stream of rewards. *)
From Coq Require Import List Arith ZArith QArith Bool.
From Verif Require Import AB_Model.
Import ListNotations.
Open Scope nat_scope.
Definition lastn {X} (n : nat) (l : list X) : list X := skipn (length l - n) l.
(** The finished episodes of a stream, and the rewards of the unfinished one; p: rewards before the stream. *)
Fixpoint episodes (p : list Q) (stream : list (Q * bool)) : list (list Q) * list Q :=
  match stream with
  | [] => ([], p)
  | (r, true) :: rest => let (f, u) := episodes [] rest in ((p ++ [r]) :: f, u)
  | (r, false) :: rest => episodes (p ++ [r]) rest
  end.
(** All an environment delivered over some rollouts. *)
Definition stream_of (i : nat) (rollouts : list (list (list (Q * bool)))) : list (Q * bool) := concat (map (fun ro => nth i ro []) rollouts).
(** The episodes of one environment in a log of (environment, rewards). *)
Definition of_env (i : nat) (log : list (nat * list Q)) : list (list Q) := map snd (filter (fun x => fst x =? i) log).
