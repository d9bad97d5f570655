(** What a population optimizer reports, in terms of the log of points given to the user's
    function. *)
From Coq Require Import List Arith ZArith QArith Bool.
From Verif Require Import Base Space_Model Space_Spec Opt_Model Opt_Spec.
Import ListNotations.
Open Scope nat_scope.

(** Histories of a run whose log consists of blocks of [n] evaluations: entry [k] of the global
    history is the best value among the first [k + s] blocks, entry [k] of the local history the
    best value within block [k + s - 1]. *)
Definition global_exact (m : mode) (fit : list Q -> Q) (n s : nat) (log : list (list Q)) (h : list Q) : Prop :=
  forall k v, nth_error h k = Some v -> exists x, best_of m fit (firstn (n * (k + s)) log) x v.
Definition local_exact (m : mode) (fit : list Q -> Q) (n s : nat) (log : list (list Q)) (h : list Q) : Prop :=
  forall k v, nth_error h k = Some v -> exists x, best_of m fit (firstn n (skipn (n * (k + s - 1)) log)) x v.

(** The settings under which the integer transformation cannot raise: a known method, and for
    the randomised ones every integer range has at least two values. *)
Definition discrete_ok (mt : imethod) (ds : list dimn) : Prop :=
  mt <> OtherMethod /\ (mt = NearestInt \/ Forall (fun d => d_int d = true -> (d_lo d < d_hi d)%Q) ds).

(** The initial population: [n] points of the space. *)
Definition good_init (ds : list dimn) (n : nat) (init : list (list Q)) : Prop :=
  length init = n /\ Forall (feasible ds) init.

(** The report of a run: [x], [y] the returned pair, [hg] the global history, [pop], [pf] the
    returned last population with its fitness values, [log] the points given to the user's
    function, in order, in blocks of [n]; [s - 1] blocks precede the first generation. *)
Definition report (m : mode) (fit : list Q -> Q) (ds : list dimn) (n s ngen : nat) (init log : list (list Q))
    (x : list Q) (y : Q) (hg : list Q) (pop : list (list Q)) (pf : list Q) : Prop :=
  best_of m fit log x y /\
  Forall (feasible ds) log /\
  length log = n * (ngen + s - 1) /\
  (exists rest, log = init ++ rest) /\ (exists early, log = early ++ pop) /\
  length hg = ngen /\ global_exact m fit n s log hg /\ never_worse m hg /\ nth_error hg (ngen - 1) = Some y /\
  length pop = n /\ Forall2 (fun z v => (v == fit z)%Q) pop pf.
