(** Action noise and adaptive parameter noise. /repo/neorl/rl/baselines/shared/noise.py. *)
From Coq Require Import Reals List Arith Bool.
Import ListNotations.
Open Scope R_scope.

(** The mean of OrnsteinUhlenbeckActionNoise: a Python float, as its documentation has it, or an array. *)
Inductive mean_arg : Type := Scalar (x : R) | Vector (xs : list R).
(** The arguments: noise.py:100-106. sigma is given for each component; initial_noise is the address of an array. *)
Record ou : Type := OU { mu : mean_arg; sigma : list R; theta : R; dt : R; initial_noise : option nat }.

(** Arrays are objects: at addresses, shared with the caller. prev is the address of noise_prev, and addresses from next on are free. *)
Record world : Type := World { heap : nat -> list R; next : nat; prev : nat }.
Definition put (h : nat -> list R) (a : nat) (v : list R) : nat -> list R := fun b => if Nat.eqb b a then v else h b.

(** np.zeros_like(mean): noise.py:120. *)
Definition zeros_like (m : mean_arg) : list R := match m with Scalar _ => [0] | Vector xs => repeat 0 (length xs) end.
(** reset: noise.py:116-120. *)
Definition reset (o : ou) (w : world) : world :=
  match initial_noise o with
  | Some a => World (heap w) (next w) a
  | None => World (put (heap w) (next w) (zeros_like (mu o))) (S (next w)) (next w)
  end.
(** One component of the new noise: noise.py:111-112. *)
Definition component (th d : R) (q : R * R * R * R) : R :=
  let '(n, m, s, z) := q in n + th * (m - n) * d + s * sqrt d * z.
(** __call__: noise.py:110-114; z are the normal draws. None: a float has no shape, AttributeError. *)
Definition call (o : ou) (z : list R) (w : world) : option world :=
  match mu o with
  | Scalar _ => None
  | Vector ms =>
      let noise := map (component (theta o) (dt o)) (combine (combine (combine (heap w (prev w)) ms) (sigma o)) z) in
      Some (World (put (heap w) (next w) noise) (S (next w)) (next w))
  end.
(** __init__: noise.py:100-108, in a world with the arrays of the caller. *)
Definition construct (o : ou) (h : nat -> list R) (n : nat) : world := reset o (World h n 0).

(** What a program does: it calls the noise, resets it, or changes an array in place. *)
Inductive op : Type := Call (z : list R) | Reset | Write (a : nat) (v : list R).
Definition exec (o : ou) (w : world) (p : op) : option world :=
  match p with
  | Call z => call o z w
  | Reset => Some (reset o w)
  | Write a v => Some (World (put (heap w) a v) (next w) (prev w))
  end.
Fixpoint run (o : ou) (ps : list op) (w : world) : option world :=
  match ps with
  | [] => Some w
  | p :: rest => match exec o w p with None => None | Some w' => run o rest w' end
  end.

(** AdaptiveParamNoiseSpec: noise.py:6-33. *)
Record spec : Type := Spec { initial_stddev : R; desired : R; coefficient : R; current : R }.
Definition make_spec (i d c : R) : spec := Spec i d c i.
Definition adapt (s : spec) (distance : R) : spec :=
  if Rlt_dec (desired s) distance then Spec (initial_stddev s) (desired s) (coefficient s) (current s / coefficient s)
  else Spec (initial_stddev s) (desired s) (coefficient s) (current s * coefficient s).
Definition adapts (s : spec) (distances : list R) : spec := fold_left adapt distances s.
(** A learner measures the distance that the noise of the current stddev makes, and adapts. *)
Fixpoint loop (f : R -> R) (k : nat) (s : spec) : spec :=
  match k with O => s | S k' => loop f k' (adapt s (f (current s))) end.
