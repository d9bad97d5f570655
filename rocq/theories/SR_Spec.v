(** What the annealing agent of the input files is expected to do, in terms of its card, the points evaluated and
    the lines printed. *)
Require Import List ZArith Arith Reals.
Require Import Verif.SR_Model.
Import ListNotations.

(** [lo..hi] is the range the card gives to coordinate [i]: its only range, or entry [i] of its lists. *)
Definition bounds_at (c : card) (i : nat) (lo hi : Z) : Prop :=
  exists lb ub, c_lb c = Some lb /\ c_ub c = Some ub /\
    ((lb = [lo] /\ ub = [hi]) \/
     (~ (length lb = 1 /\ length ub = 1) /\ nth_error lb i = Some lo /\ nth_error ub i = Some hi)).

(** Every coordinate lies in its range. *)
Definition in_box (c : card) (x : list Z) : Prop :=
  forall i v, nth_error x i = Some v -> exists lo hi, bounds_at c i lo hi /\ (lo <= v <= hi)%Z.

(** Bounds a user may give: one range, or one for each of the [c_size] coordinates; every range has a number. *)
Definition good_bounds (c : card) : Prop :=
  exists lb ub, c_lb c = Some lb /\ c_ub c = Some ub /\ length ub = length lb /\
    (length lb = 1 \/ length lb = c_size c) /\
    forall i lo hi, nth_error lb i = Some lo -> nth_error ub i = Some hi -> (lo <= hi)%Z.

(** [y] differs from [x] exactly at the places [ps]. *)
Definition differ_at (ps : list nat) (x y : list Z) : Prop :=
  length y = length x /\
  forall i, i < length x -> (In i ps <-> nth_error y i <> nth_error x i).

(** The points evaluated with their rewards, in order: the initial one and one for each step. *)
Definition evaluated (x0 : list Z) (r0 : R) (evs : list event) : list (list Z * R) :=
  (x0, r0) :: map (fun e => (e_new e, e_new_r e)) evs.

(** The first of the pairs with the greatest reward. *)
Definition first_best (l : list (list Z * R)) (x : list Z) (r : R) : Prop :=
  exists before after, l = before ++ (x, r) :: after /\
    (forall y q, In (y, q) before -> (q < r)%R) /\ (forall y q, In (y, q) after -> (q <= r)%R).

(** The Metropolis rule at temperature [T] with the uniform number [a]: no loss, or a loss that is small enough. *)
Definition accepted (e : event) : Prop :=
  (e_from_r e <= e_new_r e)%R \/ (e_alpha e <= exp ((e_new_r e - e_from_r e) / e_temp e))%R.
Definition improving (e : event) : Prop := (e_from_r e < e_new_r e)%R.

(** Each step starts where the step before it ended; it ends at the point proposed if that is accepted, and where
    it started if not. *)
Inductive linked : list Z -> R -> list event -> Prop :=
| linked_nil : forall x r, linked x r []
| linked_cons : forall x r e es,
    e_from e = x -> e_from_r e = r ->
    (accepted e -> e_after e = e_new e /\ e_after_r e = e_new_r e) ->
    (~ accepted e -> e_after e = x /\ e_after_r e = r) ->
    linked (e_after e) (e_after_r e) es ->
    linked x r (e :: es).

(** [n] of the entries of a list have a property. *)
Inductive counts {V} (P : V -> Prop) : list V -> nat -> Prop :=
| counts_nil : counts P [] 0
| counts_yes : forall a l n, P a -> counts P l n -> counts P (a :: l) (S n)
| counts_no : forall a l n, ~ P a -> counts P l n -> counts P (a :: l) n.

(** The steps after [a] up to the first number of the list, after that up to the second, and so on. *)
Fixpoint windows (a : nat) (l : list nat) : list (nat * nat) :=
  match l with [] => [] | b :: t => (a, b) :: windows b t end.

(** The rows of the dataset used, in order. *)
Fixpoint rows_used (evs : list event) : list nat :=
  match evs with
  | [] => []
  | e :: t => match e_row e with Some k => k :: rows_used t | None => rows_used t end
  end.

(** [lo + raw mod (hi - lo + 1)]: the number of [lo..hi] a raw draw stands for. *)
Definition value_of (lo hi raw : Z) : Z := (lo + raw mod (hi + 1 - lo))%Z.

(** Among the first [fuel] tries of every step there is one that avoids any two given numbers. *)
Definition avoiding (fuel : nat) (c : card) (D : nat -> draw) : Prop :=
  forall step i j lo hi lo' hi' a b,
    bounds_at c i lo hi -> bounds_at c j lo' hi' ->
    exists k, k < fuel /\ value_of lo hi (fst (d_pairs (D step) k)) <> a /\
                          value_of lo' hi' (snd (d_pairs (D step) k)) <> b.

(** A card that can be carried out: at least two coordinates and random numbers that move for [singleswap] and
    [dualswap], a dataset of rows of the right length for [kbs], four coordinates with own ranges for [quadswap]. *)
Definition runnable (fuel : nat) (c : card) (D : nat -> draw) : Prop :=
  good_bounds c /\ c_start c = None /\ c_freq c <> 0 /\ c_cooling c <> OtherCooling /\
  match c_swap c with
  | Single | Dual => 2 <= c_size c /\ avoiding fuel c D
  | Quad => 4 <= c_size c /\ (forall lb, c_lb c = Some lb -> length lb = c_size c)
  | Full => True
  | Kbs => c_rows c <> [] /\ forall r, In r (c_rows c) -> length r = c_size c
  | OtherSwap => False
  end.
