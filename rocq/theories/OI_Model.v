(** The encoding of observations before they enter a network: observation_input
    (neorl/rl/baselines/shared/input.py:6-54) and its use by the policies (shared/policies.py:112-124).
    A network receives a batch of observations; the placeholder only accepts rows of the space's shape.  The rows
    of arrays are flattened, as tf.layers.flatten (policies.py:565; also the middle axis of size one which a
    MultiDiscrete space has) does with the result.  Numbers are exact: the cast to float32 is not modelled. *)
From Coq Require Import QArith ZArith List Bool Lia.
Import ListNotations.
Open Scope list_scope.
Open Scope nat_scope.

(** A bound of a Box (gym): a number or an infinity. *)
Inductive bound := Fin (q : Q) | Inf.
(** The observation spaces (input.py:19, 24, 38, 43, 51).  A Box of floats has the bounds low and high for every
    component, a Box of integers has a dtype of [bits] bits, signed or not. *)
Inductive space :=
| Discrete (n : nat)
| BoxF (b : list (bound * bound))
| BoxI (signed : bool) (bits : Z) (b : list (Z * Z))
| MultiBinary (n : nat)
| MultiDiscrete (nvec : list nat)
| Other.
(** One observation. *)
Inductive obs := One (z : Z) | Floats (l : list Q) | Ints (l : list Z).
(** A float of the result: numbers, and what a division by zero gives. *)
Inductive num := Num (q : Q) | NaN | PosInf | NegInf.
(** What a call does. *)
Inductive outcome (A : Type) := Returns (x : A) | Raises.
Arguments Returns {A}. Arguments Raises {A}.

(** Division of floats. *)
Definition divide (x y : Q) : num :=
  if Qeq_bool y 0 then (if Qeq_bool x 0 then NaN else if Qle_bool 0 x then PosInf else NegInf) else Num (x / y)%Q.

(** tf.one_hot(z, n) cast to float (22, 46): no index matches outside of the range. *)
Definition one_hot (n : nat) (z : Z) : list num := map (fun i => Num (if Z.eqb z (Z.of_nat i) then 1 else 0)) (seq 0 n).

(** np.any(np.isinf(low)) and np.any(np.isinf(high)) (29). *)
Definition is_inf (b : bound) : bool := match b with Inf => true | Fin _ => false end.
Definition any_inf (b : list (bound * bound)) : bool := existsb (fun p => is_inf (fst p) || is_inf (snd p)) b.
(** The number of a finite bound. *)
Definition fin (b : bound) : Q := match b with Fin q => q | Inf => 0 end.
(** ob_space.high - ob_space.low of floats (30, 33), only reached for finite bounds. *)
Definition width_f (p : bound * bound) : Q := (fin (snd p) - fin (fst p))%Q.
(** ob_space.high - ob_space.low of integer arrays: numpy keeps the dtype and wraps around. *)
Definition width_i (signed : bool) (bits : Z) (p : Z * Z) : Z :=
  let d := (snd p - fst p)%Z in
  if signed then ((d + 2 ^ (bits - 1)) mod 2 ^ bits - 2 ^ (bits - 1))%Z else (d mod 2 ^ bits)%Z.
(** (processed_observations - ob_space.low) / (ob_space.high - ob_space.low) (33). *)
Definition rescale (x low width : Q) : num := divide (x - low) width.

(** Whether the placeholder takes a row (21, 25, 39, 44). *)
Definition fits (sp : space) (o : obs) : bool :=
  match sp, o with
  | Discrete _, One _ => true
  | BoxF b, Floats l => length l =? length b
  | BoxI _ _ b, Ints l => length l =? length b
  | MultiBinary n, Ints l => length l =? n
  | MultiDiscrete nvec, Ints l => length l =? length nvec
  | _, _ => false
  end.

(** The processed observation of one row (22, 26-34, 40, 45-48). *)
Definition encode (sp : space) (scale : bool) (o : obs) : list num :=
  match sp, o with
  | Discrete n, One z => one_hot n z
  | BoxF b, Floats l =>
      if scale && negb (any_inf b) && existsb (fun p => negb (Qeq_bool (width_f p) 0)) b
      then map (fun xp => rescale (fst xp) (fin (fst (snd xp))) (width_f (snd xp))) (combine l b)
      else map Num l
  | BoxI signed bits b, Ints l =>
      if scale && existsb (fun p => negb (Z.eqb (width_i signed bits p) 0)) b
      then map (fun xp => rescale (inject_Z (fst xp)) (inject_Z (fst (snd xp))) (inject_Z (width_i signed bits (snd xp)))) (combine l b)
      else map (fun z => Num (inject_Z z)) l
  | MultiBinary _, Ints l => map (fun z => Num (inject_Z z)) l
  | MultiDiscrete nvec, Ints l => concat (map (fun nz => one_hot (fst nz) (snd nz)) (combine nvec l))
  | _, _ => []
  end.

(** Whether there is an encoding at all: another space raises (51-53), and there is nothing to split or join for
    a MultiDiscrete space without components. *)
Definition supported (sp : space) : bool := match sp with Other | MultiDiscrete [] => false | _ => true end.

(** observation_input (6-54) and a run with a batch of observations: with a batch_size the placeholder only takes
    batches of that size. *)
Definition observation_input (sp : space) (batch_size : option nat) (scale : bool) (rows : list obs) : outcome (list (list num)) :=
  if supported sp && match batch_size with Some n => length rows =? n | None => true end && forallb (fits sp) rows
  then Returns (map (encode sp scale) rows) else Raises.

(** How a policy calls it (policies.py:122, 410, 545; deepq/policies.py:94-96): scaled exactly for the feature
    extraction "cnn". *)
Inductive extraction := Cnn | Mlp.
Definition policy_input (fe : extraction) (sp : space) (n_batch : option nat) (rows : list obs) : outcome (list (list num)) :=
  observation_input sp n_batch (match fe with Cnn => true | Mlp => false end) rows.
