(** The FastFractal "DoubleDip" function F7 (neorl/benchmarks/cec08.py:175-211) and what it does to the generator of random numbers of
    numpy, which all optimizers share.  Floats are exact real numbers. *)
From Coq Require Import List Arith Reals.
Import ListNotations.
Open Scope R_scope.

(** cec08.py:187-191 *)
Definition doubledip (x c s : R) : R :=
  if Rlt_dec (- (1 / 2)) x then if Rlt_dec x (1 / 2) then (- 6144 * (x - c) ^ 6 + 3088 * (x - c) ^ 4 - 392 * (x - c) ^ 2 + 1) * s else 0 else 0.
(** cec08.py:204-205 *)
Definition twist (y : R) : R := 4 * (y ^ 4 - 2 * y ^ 3 + y ^ 2).

Section Generator.
(** The global generator: numpy.random.seed, choice([0, 1, 2]) and uniform() on its state. *)
Variables (G : Type) (seed : nat -> G) (choice : G -> nat * G) (uniform : G -> R * G).

(** sum([... for _ in range(0, selected)]) (200): two draws for every summand. *)
Fixpoint dips (x : R) (k selected : nat) (g : G) : R * G :=
  match selected with
  | O => (0, g)
  | S m => let (c, g1) := uniform g in let (u, g2) := uniform g1 in
           let (rest, g3) := dips x k m g2 in (doubledip x c (1 / (2 ^ (k - 1) * (2 - u))) + rest, g3)
  end.
(** for t in range(1, upper) (198-200): [n] rounds. *)
Fixpoint rounds (x : R) (k n : nat) (g : G) : R * G :=
  match n with
  | O => (0, g)
  | S m => let (selected, g1) := choice g in let (a, g2) := dips x k selected g1 in let (rest, g3) := rounds x k m g2 in (a + rest, g3)
  end.
(** for k in range(1, 4) (193-202): range(1, upper) has upper - 1 elements. *)
Fixpoint levels (x : R) (ks : list nat) (g : G) : R * G :=
  match ks with
  | [] => (0, g)
  | k :: r => let (a, g1) := rounds x k (2 ^ (k - 1) - 1) g in let (rest, g2) := levels x r g1 in (a + rest, g2)
  end.
Definition fractal1d (x : R) (g : G) : R * G := levels x (seq 1 3) g.
(** The loop over coordinates (208-210): neighbours by pairs; i % problem_size is i here. *)
Fixpoint along (l : list R) (g : G) : R * G :=
  match l with
  | a :: ((b :: _) as r) => let (v, g1) := fractal1d (a + twist b) g in let (rest, g2) := along r g1 in (v + rest, g2)
  | _ => (0, g)
  end.
(** fit (180-211): the value, unless solution[-1] raises, and the state of the generator afterwards. *)
Definition fit (l : list R) (g : G) : option R * G :=
  let g0 := seed 0 in
  if (1000 <? length l)%nat then (Some 1, g0)
  else match l with
       | [] => (None, g0)
       | a :: _ => let (v, g1) := along l g0 in (Some (last l 0 + twist a + v), g1)
       end.
(** What an optimizer does: it draws, evaluates a point that depends on all its draws so far, draws again, ...; [draws] takes the draws of
    one step from the generator. *)
Fixpoint search (draws : G -> R * G) (propose : list R -> list R) (steps : nat) (past : list R) (g : G) : list R :=
  match steps with
  | O => []
  | S m => let (d, g1) := draws g in d :: search draws propose m (past ++ [d]) (snd (fit (propose (past ++ [d])) g1))
  end.
End Generator.
