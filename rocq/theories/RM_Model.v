(** Model of the surrogate of the microreactor (neorl/benchmarks/reactivity_model.py), over the real numbers. *)
From Coq Require Import Reals List ZArith Lia.
Import ListNotations.
Open Scope R_scope.

(** ** Tables *)
(** A table of centers and hist, sorted by centers. *)
Definition table := list (R * R).
Definition ltb (a b : R) : bool := if Rlt_dec a b then true else false.
(** Indexing of an array: negative indices count from the end, indices past the end raise. *)
Definition at_index (ks : table) (i : Z) : option (R * R) :=
  let n := Z.of_nat (length ks) in
  if (i <? 0)%Z then if (- n <=? i)%Z then nth_error ks (Z.to_nat (n + i)) else None else nth_error ks (Z.to_nat i).
(** np.searchsorted of a sorted array. *)
Definition searchsorted (ks : table) (v : R) : nat := length (filter (fun k => ltb (fst k) v) ks).
(** The line through two knots (reactivity_model.py:69-70, 78, 83). *)
Definition line (p q : R * R) (t : R) : R := (t - fst p) / (fst q - fst p) * (snd q - snd p) + snd p.
(** The integral of one piece, from (a, ya) to (b, yb): of the function (71, 74, 79, 84) and of its square (99-101, 104-110, 114-118, 121-126). *)
Definition piece (a ya b yb : R) : R := (b - a) * (yb + ya) / 2.
Definition piece_sq (a ya b yb : R) : R :=
  let m := (yb - ya) / (b - a) in m ^ 2 / 3 * (b ^ 3 - a ^ 3) + (m * ya - m ^ 2 * a) * (b ^ 2 - a ^ 2) + (m * a - ya) ^ 2 * (b - a).
Fixpoint pieces (block : R -> R -> R -> R -> R) (ks : table) : R :=
  match ks with p :: ((q :: _) as r) => block (fst p) (snd p) (fst q) (snd q) + pieces block r | _ => 0 end.
Definition bind {A B} (o : option A) (f : A -> option B) : option B := match o with Some a => f a | None => None end.
(** integrate (58-86) with [piece], integrate_sq (88-128) with [piece_sq]. *)
Definition integrate_with (block : R -> R -> R -> R -> R) (ks : table) (lb ub : R) : option R :=
  let inside := filter (fun i => andb (ltb lb (fst (nth i ks (0, 0)))) (ltb (fst (nth i ks (0, 0))) ub)) (seq 0 (length ks)) in
  match inside with
  | [] =>
    let idx := Z.of_nat (searchsorted ks lb) in
    bind (at_index ks (idx - 1)) (fun p => bind (at_index ks idx) (fun q => Some (block lb (line p q lb) ub (line p q ub))))
  | l :: _ =>
    let u := last inside 0%nat in
    bind (at_index ks (Z.of_nat l - 1)) (fun p => bind (at_index ks (Z.of_nat l)) (fun q =>
    bind (at_index ks (Z.of_nat u)) (fun r => bind (at_index ks (Z.of_nat u + 1)) (fun s =>
      Some (pieces block (map (fun i => nth i ks (0, 0)) inside) + block lb (line p q lb) (fst q) (snd q) + block (fst r) (snd r) ub (line r s ub))))))
  end.
Definition integrate := integrate_with piece.
Definition integrate_sq := integrate_with piece_sq.
(** interp1d (190-191): the first knot not below t ends the cell; outside of the table it raises. *)
Fixpoint interpolate (ks : table) (t : R) : R :=
  match ks with
  | p :: ((q :: _) as r) => if Rle_dec t (fst q) then line p q t else interpolate r t
  | [p] => snd p
  | [] => 0
  end.
Definition interp1d (ks : table) (t : R) : option R :=
  match ks with
  | [] => None
  | p :: _ => if Rlt_dec t (fst p) then None else if Rlt_dec (fst (last ks p)) t then None else Some (interpolate ks t)
  end.

(** ** Angles *)
(** adj_coords (52-56) of one angle. *)
Definition modulo (a b : R) : R := a - b * IZR (Int_part (a / b)).
Definition adj (t : R) : R := let r := modulo t (2 * PI) in if Rlt_dec PI r then r - 2 * PI else r.
(** int_bounds (130-140). *)
Definition tolerance : R := / 10 ^ 5.
Definition int_bounds (theta c : R) : option ((R * R) * (R * R)) :=
  if andb (ltb theta (PI + tolerance)) (ltb (- PI - tolerance) theta) then
    Some (if andb (ltb 0 theta) (ltb theta c) then ((c / 2, theta + c / 2), (- c / 2, theta - c / 2))
          else if andb (ltb (- c) theta) (ltb theta 0) then ((theta - c / 2, - c / 2), (theta + c / 2, c / 2))
          else ((theta - c / 2, theta + c / 2), (- c / 2, c / 2)))
  else None.

(** ** The model *)
(** The data files (8-50): both tables and the coefficients, row j and column i (alpha0, ..., alpha8). *)
Record reactor := Reactor { jmA : table; jmB : table; alphas : nat -> nat -> R }.
(** Drums are numbered from 0. *)
Definition drums : list nat := seq 0 8.
Definition config_a (i : nat) : bool := existsb (Nat.eqb i) [0; 3; 4; 7]%nat.
Definition jm (m : reactor) (i : nat) : table := if config_a i then jmA m else jmB m.
Definition cangle (i : nat) : R := nth i [130; 145; 145; 130; 130; 145; 145; 130] 0 / 180 * PI.
Fixpoint mapM {A B} (f : A -> option B) (l : list A) : option (list B) :=
  match l with [] => Some [] | a :: r => bind (f a) (fun b => bind (mapM f r) (fun s => Some (b :: s))) end.
Definition total (l : list R) : R := fold_right Rplus 0 l.
(** calc_zetatildes (142-170): gammastar starts with 1. *)
Definition gammastar (m : reactor) (th : nat -> R) (i : nat) : option R :=
  bind (integrate (jm m i) (th i - cangle i / 2) (th i + cangle i / 2)) (fun v => Some (1 - v)).
Definition zetatildes (m : reactor) (th : nat -> R) : option (nat -> R) :=
  bind (mapM (gammastar m th) drums) (fun gs =>
  Some (fun j => total (map (fun p => fst p * alphas m j (snd p)) (combine (1 :: gs) (seq 0 9))))).
(** The difference of integrals of one drum (215-222). *)
Definition difference (m : reactor) (th : nat -> R) (i : nat) : option R :=
  bind (int_bounds (th i) (cangle i)) (fun b =>
  bind (integrate_sq (jm m i) (fst (fst b)) (snd (fst b))) (fun v1 =>
  bind (integrate_sq (jm m i) (fst (snd b)) (snd (snd b))) (fun v2 => Some (v1 - v2)))).
(** eval without nom (194-232); of 8 angles. *)
Definition eval (m : reactor) (pert : nat -> R) : option R :=
  let th := fun i => adj (pert i) in
  bind (zetatildes m th) (fun z => bind (mapM (difference m th) drums) (fun ds =>
  Some (total (map (fun p => z (snd p) * fst p) (combine ds drums))))).
(** evald (234-277) for drum k, counted from 0; [given] are zetatildes passed by evalg. *)
Definition evald_with (given : option (nat -> R)) (m : reactor) (pert : nat -> R) (k : nat) : option R :=
  let th := fun i => adj (pert i) in
  bind (interp1d (jm m k) (th k + cangle k / 2)) (fun hi => bind (interp1d (jm m k) (th k - cangle k / 2)) (fun lo =>
  bind (match given with Some z => Some z | None => zetatildes m th end) (fun z =>
  bind (mapM (difference m th) drums) (fun ds =>
    Some (total (map (fun p => alphas m (snd p) (S k) * (- hi + lo) * fst p) (combine ds drums)) + z k * (hi ^ 2 - lo ^ 2)))))).
Definition evald := evald_with None.
(** evalg (279-295): zetatildes are those of the angles as given. *)
Definition evalg (m : reactor) (pert : nat -> R) : option (list R) :=
  bind (zetatildes m pert) (fun z => mapM (evald_with (Some z) m pert) drums).
(** eval with nom (224-231).  Values of nom: none, an array, a list or tuple. *)
Inductive value := Absent | Array (l : list R) | Sequence (l : list R).
Inductive raised := ValueError | TypeError | OtherError.
(** The truth value: an array has one only if it has at most one element. *)
Definition truth (v : value) : bool + raised :=
  match v with
  | Absent => inl false
  | Array [] => inl false
  | Array [x] => inl (if Req_EM_T x 0 then false else true)
  | Array _ => inr ValueError
  | Sequence l => inl (negb (Nat.eqb (length l) 0))
  end.
(** The evaluation of one set of angles: only arrays have a remainder. *)
Definition eval_one (m : reactor) (v : value) : R + raised :=
  match v with Array l => match eval m (fun i => nth i l 0) with Some r => inl r | None => inr OtherError end | _ => inr TypeError end.
Definition eval_py (m : reactor) (pert nom : value) : R + raised :=
  match eval_one m pert with
  | inr e => inr e
  | inl r => match truth nom with
             | inr e => inr e
             | inl false => inl r
             | inl true => match eval_one m nom with inl r0 => inl (r - r0) | inr e => inr e end
             end
  end.
