(** Model of neorl/rl/baselines/shared/segment_tree.py.
    The NumPy array [self._value] is a function from indices to values together
    with its length [2 * capacity]; accesses outside it are [Raise].
    Simplification: items are exact (Q, or Q with +inf), not binary floats. *)
From Coq Require Import List Arith ZArith QArith Bool.
From Verif Require Import Base.
Import ListNotations.
Open Scope nat_scope.

(** segment_tree.py 4-15 [unique]: drops an element equal to its right
    neighbour.  (On an empty array the Python code raises; callers below treat
    the empty index array separately.) *)
Fixpoint unique (l : list nat) : list nat :=
  match l with
  | [] => []
  | x :: r =>
      match r with
      | [] => [x]
      | y :: _ => if Nat.eqb y x then unique r else x :: unique r
      end
  end.

Section Tree.
  Context {V : Type}.
  Variable op : V -> V -> V.    (* self._operation *)
  Variable e : V.               (* self.neutral_element *)

  Record tree : Type := mkTree { cap : nat; val : nat -> V }.

  (** segment_tree.py 39-43 [__init__]; [None] = assertion failure. *)
  Definition new_tree (capacity : nat) : option tree :=
    if (0 <? capacity) && (Nat.land capacity (capacity - 1) =? 0)
    then Some (mkTree capacity (fun _ => e))
    else None.

  (** NumPy fancy assignment [value[idxs] = vals]: cells are written in order,
      so the last value given for a repeated index wins. *)
  Definition write_many (v : nat -> V) (ivs : list (nat * V)) : nat -> V :=
    fold_left (fun v iv => upd v (fst iv) (snd iv)) ivs v.

  (** segment_tree.py 86-93, the [while] loop of [__setitem__]. *)
  Fixpoint up_loop (fuel : nat) (v : nat -> V) (idxs : list nat)
    : outcome (nat -> V) :=
    if (1 <? length idxs) || (0 <? hd 0 idxs) then
      match fuel with
      | O => Fuel
      | S fuel' =>
          let v' := write_many v
                      (map (fun i => (i, op (v (2 * i)) (v (2 * i + 1)))) idxs) in
          up_loop fuel' v' (unique (map (fun i => i / 2) idxs))
      end
    else Done v.

  (** segment_tree.py 78-93 [__setitem__] with an index array (a scalar index is
      the one-element array, line 82-83).  Indices are non-negative here (a
      negative index would address inner nodes; the callers never produce one).
      [Raise]: an index is out of the array, or the index array is empty (the
      boolean mask of [unique] then has the wrong length). *)
  Definition setitems (fuel : nat) (t : tree) (ivs : list (nat * V))
    : outcome tree :=
    match ivs with
    | [] => Raise
    | _ =>
        if forallb (fun iv => fst iv <? cap t) ivs then
          let leafs := map (fun iv => (fst iv + cap t, snd iv)) ivs in
          let v := write_many (val t) leafs in
          obind (up_loop fuel v (unique (map (fun iv => fst iv / 2) leafs)))
                (fun v' => Done (mkTree (cap t) v'))
        else Raise
    end.

  (** segment_tree.py 95-98 [__getitem__] (one index). *)
  Definition getitem (t : tree) (i : nat) : outcome V :=
    if i <? cap t then Done (val t (cap t + i)) else Raise.

  (** segment_tree.py 45-58 [_reduce_helper]; [fuel] bounds the recursion
      depth.  Python integers are [Z] ([//] is [Z.div]). *)
  Fixpoint reduce_helper (fuel : nat) (t : tree) (start stop : Z) (node : Z)
           (node_start node_end : Z) : outcome V :=
    match fuel with
    | O => Fuel
    | S f =>
        if (start =? node_start)%Z && (stop =? node_end)%Z then
          if (node <? 2 * Z.of_nat (cap t))%Z
          then Done (val t (Z.to_nat node)) else Raise
        else
          let mid := ((node_start + node_end) / 2)%Z in
          if (stop <=? mid)%Z then
            reduce_helper f t start stop (2 * node)%Z node_start mid
          else if (mid + 1 <=? start)%Z then
            reduce_helper f t start stop (2 * node + 1)%Z (mid + 1)%Z node_end
          else
            obind (reduce_helper f t start mid (2 * node)%Z node_start mid)
              (fun a =>
            obind (reduce_helper f t (mid + 1)%Z stop (2 * node + 1)%Z (mid + 1)%Z node_end)
              (fun b => Done (op a b)))
    end.

  (** segment_tree.py 60-76 [reduce] (also 110-118 [sum], 163-171 [min]). *)
  Definition reduce (fuel : nat) (t : tree) (start : Z) (stop : option Z)
    : outcome V :=
    let c := Z.of_nat (cap t) in
    let e0 := match stop with None => c | Some e0 => e0 end in
    let e1 := if (e0 <? 0)%Z then (e0 + c)%Z else e0 in
    reduce_helper fuel t start (e1 - 1)%Z 1%Z 0%Z (c - 1)%Z.
End Tree.

Arguments tree V : clear implicits.
Arguments mkTree {V} _ _.
Arguments cap {V} _.
Arguments val {V} _ _.

(** segment_tree.py 101-108, SumSegmentTree over exact numbers. *)
Definition sum_tree := tree Q.
Definition new_sum_tree : nat -> option sum_tree := new_tree 0%Q.
(** segment_tree.py 154-161, MinSegmentTree. *)
Definition min_tree := tree ext.
Definition new_min_tree : nat -> option min_tree := new_tree PInf.

(** segment_tree.py 141-150, body of the [while] loop of [find_prefixsum_idx],
    for the whole query vector; an entry is (idx, prefixsum, cont). *)
Definition prefix_step (t : sum_tree) (q : nat * Q * bool) : outcome (nat * Q * bool) :=
  let '(idx, p, cont) := q in
  let idx := if cont then 2 * idx else idx in
  if idx <? 2 * cap t then
    let x := val t idx in
    let p' := if Qle_bool x p then (p - x)%Q else p in
    let idx' := if Qltb p x || negb cont then idx else idx + 1 in
    Done (idx', p', idx' <? cap t)
  else Raise.

Fixpoint omap {A B} (f : A -> outcome B) (l : list A) : outcome (list B) :=
  match l with
  | [] => Done []
  | a :: r => obind (f a) (fun b => obind (omap f r) (fun bs => Done (b :: bs)))
  end.

Fixpoint prefix_loop (fuel : nat) (t : sum_tree) (qs : list (nat * Q * bool))
  : outcome (list (nat * Q * bool)) :=
  if existsb (fun q => snd q) qs then
    match fuel with
    | O => Fuel
    | S f => obind (omap (prefix_step t) qs) (prefix_loop f t)
    end
  else Done qs.

(** segment_tree.py 120-151 [find_prefixsum_idx]; assertions 134-135 included
    ([np.min] of an empty query raises). *)
Definition find_prefixsum_idx (fuel : nat) (t : sum_tree) (ps : list Q)
  : outcome (list nat) :=
  match ps with
  | [] => Raise
  | _ =>
      obind (reduce Qplus fuel t 0 None) (fun total =>
      if forallb (fun p => Qle_bool 0 p && Qle_bool p (total + (1 # 100000))) ps then
        obind (prefix_loop fuel t (map (fun p => (1, p, true)) ps))
              (fun qs => Done (map (fun q => fst (fst q) - cap t) qs))
      else Raise)
  end.
