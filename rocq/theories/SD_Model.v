(** Seeds: set_neorl_seed (neorl/utils/seeding.py:26-34) and when optimizers call it.  Both generators of random numbers, of python and of
    numpy, are global: all optimizers and the user draw from the same two. *)
From Coq Require Import List Arith Bool.
Import ListNotations.

(** Optimizers that run in one process.  SA (whose chains are seeded again), the PESA family, AEO, EDEV, PPOES, ACKDE and NEAT, which run
    other optimizers, are left out. *)
Inductive kind := DE | MFO | JAYA | HHO | NHHO | NGA | ES | PSO | GWO | WOA | SSA | BAT | CS | TS | ACO | XNES | HCLPSO | EPSO | NSGAII | NSGAIII.
(** Those whose evolute calls set_neorl_seed(self.seed): de.py:226, mfo.py:200, jaya.py:204, hho.py:104, nhho.py:159, nga.py:87. *)
Definition reseeds (k : kind) : bool := match k with DE | MFO | JAYA | HHO | NHHO | NGA => true | _ => false end.

Section World.
(** States of the two generators and their seeding. *)
Variables (P N : Type) (pseed : nat -> P) (nseed : nat -> N).
Notation world := (P * N)%type.
(** set_neorl_seed (26-34) *)
Definition set_neorl_seed (seed : option nat) (w : world) : world := match seed with None => w | Some s => (pseed s, nseed s) end.

(** The algorithms: what evolute does after the seeding, with the memory of the object and an argument, drawing from the generators; the
    memory of a new object.  Arbitrary. *)
Variables (M A Res : Type) (fresh : kind -> M) (run : kind -> M -> A -> world -> Res * M * world).
(** An object: its kind, self.seed and its memory. *)
Record object := mkObj { o_kind : kind; o_seed : option nat; o_memory : M }.
(** A program of the user: build an optimizer under a name, run one, or do something else with the generators. *)
Inductive event := Build (name : nat) (k : kind) (seed : option nat) | Evolute (name : nat) (a : A) | Elsewhere (f : world -> world).
Definition objects := nat -> option object.
Definition put (n : nat) (o : object) (os : objects) : objects := fun m => if m =? n then Some o else os m.
(** All constructors call set_neorl_seed(seed): de.py:45, mfo.py:47, jaya.py:44, hho.py:55, nhho.py:74, nga.py:51, es.py:53, pso.py:46,
    gwo.py:45, woa.py:49, ssa.py:47, bat.py:59, cs.py:49, ts.py:50, aco.py:53, xnes.py:54, hclpso.py:47, epso.py:57, nsgaII.py:64,
    nsgaIII.py:66.  Running a name that is not there gives no result. *)
Definition step (e : event) (st : objects * world) : option Res * (objects * world) :=
  let (os, w) := st in
  match e with
  | Build n k seed => (None, (put n (mkObj k seed (fresh k)) os, set_neorl_seed seed w))
  | Evolute n a =>
      match os n with
      | None => (None, st)
      | Some o =>
          let w1 := if reseeds (o_kind o) then set_neorl_seed (o_seed o) w else w in
          match run (o_kind o) (o_memory o) a w1 with (r, m, w2) => (Some r, (put n (mkObj (o_kind o) (o_seed o) m) os, w2)) end
      end
  | Elsewhere f => (None, (os, f w))
  end.
(** All events: the results of the runs in order. *)
Fixpoint results (es : list event) (st : objects * world) : list Res * (objects * world) :=
  match es with
  | [] => ([], st)
  | e :: r => let (x, st1) := step e st in let (l, st2) := results r st1 in (match x with Some v => v :: l | None => l end, st2)
  end.
End World.
