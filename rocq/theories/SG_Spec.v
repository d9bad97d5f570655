(** What a user can expect of Latin hypercube sampling and of the two surrogate-assisted
    optimizers. *)
From Coq Require Import List Arith ZArith QArith Qabs Bool Permutation.
From Verif Require Import Base Space_Model Space_Spec Opt_Model Opt_Spec.
Import ListNotations.
Open Scope nat_scope.

(** Stratum [j] of [N] of the interval [lo, hi]. *)
Definition stratum (lo hi : Q) (N j : nat) (x : Q) : Prop :=
  (lo + (hi - lo) * inject_Z (Z.of_nat j) / inject_Z (Z.of_nat N) <= x)%Q /\
  (x < lo + (hi - lo) * inject_Z (Z.of_nat (S j)) / inject_Z (Z.of_nat N))%Q.

(** Coordinate [i] of the rows has exactly one value in each of the [N] strata. *)
Definition one_per_stratum (lo hi : Q) (N i : nat) (rows : list (list Q)) : Prop :=
  forall j, j < N -> exists k x, (exists r, nth_error rows k = Some r /\ nth_error r i = Some x /\ stratum lo hi N j x) /\
    forall k' r' x', nth_error rows k' = Some r' -> nth_error r' i = Some x' -> stratum lo hi N j x' -> k' = k.

(** The draws of a Latin hypercube: uniform in [0, 1). *)
Definition unit_draws (u : nat -> nat -> Q) : Prop := forall i j, (0 <= u i j)%Q /\ (u i j < 1)%Q.

(** Two rows are different points. *)
Definition distinct_rows (rows : list (list Q)) : Prop :=
  forall i j x y, i < j -> nth_error rows i = Some x -> nth_error rows j = Some y -> ~ Forall2 Qeq x y.

(** Among [pop], the models [a] and [b] disagree least about [x]; [y] is the mean of what they say. *)
Definition best_agreed (a b : list Q -> Q) (pop : list (list Q)) (x : list Q) (y : Q) : Prop :=
  In x pop /\ (y == (a x + b x) / 2)%Q /\ forall z, In z pop -> (Qabs (a x - b x) <= Qabs (a z - b z))%Q.

(** The mean of three predictions. *)
Definition mean3 (a b c : list Q -> Q) (x : list Q) : Q := ((a x + b x + c x) / 3)%Q.

(** [rt] bounds the 16th root from above, within the unit interval. *)
Definition root16 (rt : Q -> Q) : Prop :=
  forall t y, (0 <= t)%Q -> (t ^ 16 <= y)%Q -> (y <= 1)%Q -> (t <= rt y)%Q /\ (rt y <= 1)%Q.

(** [next] is the [n] best of [cands] in ascending order of [score]. *)
Definition keeps_best (score : list Q -> Q) (n : nat) (cands next : list (list Q)) : Prop :=
  length next = Nat.min n (length cands) /\
  (exists rest, Permutation cands (next ++ rest) /\ forall x z, In x next -> In z rest -> (score x <= score z)%Q) /\
  forall i j x z, i < j -> nth_error next i = Some x -> nth_error next j = Some z -> (score x <= score z)%Q.

(** A training set: labelled points. *)
Notation tset := (list (list Q * Q)).

(** Three training sets [p0], [p1], [p2] made of disjoint blocks [b0], [b1], [b2] of the labelled
    samples [data] (each block of [k] samples) and one point each of [pop]; that point and its label
    come from the two models fitted to the other two blocks. *)
Definition tri_training (base : nat -> tset -> list Q -> Q) (k : nat) (data : tset) (pop : list (list Q)) (p0 p1 p2 : tset) : Prop :=
  exists b0 b1 b2 rest x0 y0 x1 y1 x2 y2,
    Permutation data (b0 ++ b1 ++ b2 ++ rest) /\ length b0 = k /\ length b1 = k /\ length b2 = k /\
    p0 = b0 ++ [(x0, y0)] /\ p1 = b1 ++ [(x1, y1)] /\ p2 = b2 ++ [(x2, y2)] /\
    best_agreed (base 1 b1) (base 2 b2) pop x0 y0 /\
    best_agreed (base 0 b0) (base 2 b2) pop x1 y1 /\
    best_agreed (base 0 b0) (base 1 b1) pop x2 y2.

(** One generation of NGA: parents, training sets, candidates, survivors, reported pair. *)
Definition nga_generation (m : mode) (ds : list dimn) (npop k : nat) (data : tset) (base upd : nat -> tset -> list Q -> Q)
    (parents : list (list Q)) (p0 p1 p2 : tset) (cands next : list (list Q)) (x : list Q) (y : Q) : Prop :=
  let score := mean3 (upd 0 p0) (upd 1 p1) (upd 2 p2) in
  tri_training base k data parents p0 p1 p2 /\
  Forall (inside (dim_bounds ds)) cands /\ distinct_rows cands /\
  (forall p, In p parents -> exists c, In c cands /\ Forall2 Qeq p c) /\
  keeps_best score npop cands next /\ length next = npop /\
  nth_error next 0 = Some x /\ (forall z, In z cands -> (score x <= score z)%Q) /\ (y == as_min m (score x))%Q.

(** One generation of NHHO: the labelled samples [data] are cut into three consecutive blocks of
    (almost) equal size; hawks, training sets and reported pair. *)
Definition nhho_generation (m : mode) (data : tset) (base upd : nat -> tset -> list Q -> Q)
    (hawks : list (list Q)) (p0 p1 p2 : tset) (preds : list Q) (x : list Q) (y : Q) : Prop :=
  let score := mean3 (upd 0 p0) (upd 1 p1) (upd 2 p2) in
  (exists b0 b1 b2 x0 y0 x1 y1 x2 y2,
    data = b0 ++ b1 ++ b2 /\ length b1 <= length b0 <= S (length b2) /\ length b2 <= length b1 /\
    p0 = b0 ++ [(x0, y0)] /\ p1 = b1 ++ [(x1, y1)] /\ p2 = b2 ++ [(x2, y2)] /\
    best_agreed (base 1 b1) (base 2 b2) hawks x0 y0 /\
    best_agreed (base 2 b2) (base 0 b0) hawks x1 y1 /\
    best_agreed (base 0 b0) (base 1 b1) hawks x2 y2) /\
  preds = map score hawks /\ In x hawks /\ (forall z, In z hawks -> (score x <= score z)%Q) /\ (y == as_min m (score x))%Q.

(** The initial hawks: [n] points of the space. *)
Definition good_hawks (ds : list dimn) (n : nat) (x0 : option (list (list Q))) : Prop :=
  match x0 with Some (x :: l) => length (x :: l) = n /\ Forall (feasible ds) (x :: l) | _ => True end.

(** A regressor whose predictions stay within the unit interval when its training targets do
    (averaging, nearest neighbours, ...). *)
Definition within_targets {net} (raw : nat -> nat -> tset -> tset -> net) (predict : net -> list Q -> Q) : Prop :=
  forall c k tr te x, Forall (fun p => (0 <= snd p <= 1)%Q) tr -> (0 <= predict (raw c k tr te) x <= 1)%Q.
