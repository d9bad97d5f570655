(** What users expect of the replay buffers, in terms of the call history. *)
From Coq Require Import List Arith ZArith QArith Bool.
From Verif Require Import Base SegTree_Model SegTree_Spec Replay_Model.
Import ListNotations.
Open Scope nat_scope.

Section Spec.
  Context {Obs Act : Type}.
  Notation T := (transition Obs Act).

  (** Calls on a ReplayBuffer. *)
  Inductive call : Type :=
  | Add (o : Obs) (a : Act) (r : Q) (o' : Obs) (d : bool)
  | Extend (os : list Obs) (acts : list Act) (rs : list Q) (os' : list Obs) (ds : list bool).

  Definition exec (b : buffer Obs Act) (c : call) : option (buffer Obs Act) :=
    match c with
    | Add o a r o' d => add b o a r o' d
    | Extend os acts rs os' ds => extend b os acts rs os' ds
    end.

  (** Transitions handed over by a call, oldest first. *)
  Definition given (c : call) : list T :=
    match c with
    | Add o a r o' d => [(o, a, r, o', d)]
    | Extend os acts rs os' ds => zip5 os acts rs os' ds
    end.

  (** Last [k] elements of a list. *)
  Definition last_n {A} (k : nat) (l : list A) : list A := skipn (length l - k) l.

  (** Calls on a PrioritizedReplayBuffer. *)
  Inductive pcall : Type :=
  | PAdd (t : T)
  | PExtend (rows : list T)
  | PUpdate (idxes : list nat) (prios : list Q).

  Definition pexec (pw : Q -> Q) (fuel : nat) (p : per Obs Act) (c : pcall) : outcome (per Obs Act) :=
    match c with
    | PAdd t => per_add pw fuel p t
    | PExtend rows => per_extend pw fuel p rows
    | PUpdate is ps => update_priorities pw fuel p is ps
    end.

  Fixpoint pexecs pw fuel p (h : list pcall) : outcome (per Obs Act) :=
    match h with
    | [] => Done p
    | c :: r => obind (pexec pw fuel p c) (fun p' => pexecs pw fuel p' r)
    end.

  Definition pgiven (c : pcall) : list T :=
    match c with PAdd t => [t] | PExtend rows => rows | PUpdate _ _ => [] end.

  (** Largest priority ever given (initially 1). *)
  Definition max_given (m : Q) (ps : list Q) : Q := fold_left (fun m x => if Qle_bool x m then m else x) ps m.

  (** The priority writes a history stands for: transition number [n] (from 0)
      goes to slot [n mod s] with the largest priority seen so far, an update
      writes what it is given. [n] = transitions so far, [m] = max so far. *)
  Fixpoint prio_writes (pw : Q -> Q) (s : nat) (n : nat) (m : Q) (h : list pcall) : list (nat * Q) :=
    match h with
    | [] => []
    | PUpdate is ps :: r => combine is (map pw ps) ++ prio_writes pw s n (max_given m ps) r
    | c :: r => map (fun t => (t mod s, pw m)) (seq n (length (pgiven c)))
                ++ prio_writes pw s (n + length (pgiven c)) m r
    end.
  Fixpoint max_prio (m : Q) (h : list pcall) : Q :=
    match h with
    | [] => m
    | PUpdate _ ps :: r => max_prio (max_given m ps) r
    | _ :: r => max_prio m r
    end.

  (** Calls that respect the documented contract when [n] transitions have been
      added to a buffer of size [s]; batches are shorter than the buffer. *)
  Fixpoint contract (s n : nat) (h : list pcall) : Prop :=
    match h with
    | [] => True
    | PAdd t :: r => contract s (n + 1) r
    | PExtend rows :: r => length rows < s /\ contract s (n + length rows) r
    | PUpdate is ps :: r =>
        is <> [] /\ length is = length ps /\ (forall p, In p ps -> (0 < p)%Q) /\
        (forall i, In i is -> i < Nat.min n s) /\ contract s n r
    end.
End Spec.
