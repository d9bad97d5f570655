(** Model of neorl/multi/tools.py:130-364, the default sort of NSGA-II and NSGA-III:
    sortLogNondominated and its helpers (Fortin, Grenier and Parizeau's divide and conquer).

    A fitness tuple used as a dictionary key is represented by its reduced form, so that
    numeric equality of keys is equality of representations.  The dictionary [front] is a
    function; the helpers, which update it in place, return the new one.  [stairs] is always
    the list of negated second objectives of [fstairs], so only [fstairs] is kept.
    [bisect.bisect_right] is modelled by its contract on sorted lists (the number of leading
    elements not greater than the given one). *)
From Coq Require Import List Arith ZArith QArith Bool.
From Verif Require Import Base Opt_Model ND_Model.
Import ListNotations.
Open Scope nat_scope.

Definition key : Type := list Q.
Definition q_dec (a b : Q) : {a = b} + {a <> b}.
Proof. decide equality; [apply Pos.eq_dec|apply Z.eq_dec]. Defined.
Definition key_dec : forall a b : key, {a = b} + {a <> b} := list_eq_dec q_dec.

Definition fdict : Type := key -> nat.
Definition dset (d : fdict) (k : key) (v : nat) : fdict := fun x => if key_dec k x then v else d x.

(** Lexicographic [<] of tuples of equal length, [reverse=True] sorting of distinct tuples. *)
Fixpoint lex_ltb (a b : key) : bool :=
  match a, b with
  | x :: a', y :: b' => if Qeq_bool x y then lex_ltb a' b' else Qltb x y
  | _, _ => false
  end.
Fixpoint lex_insert (x : key) (l : list key) : list key :=
  match l with
  | [] => [x]
  | y :: r => if lex_ltb x y then y :: lex_insert x r else x :: y :: r
  end.
Definition lex_sort (l : list key) : list key := fold_right lex_insert [] l.

(** neorl/multi/tools.py:130-141 median of the values of objective [obj]. *)
Definition median (obj : nat) (l : list key) : Q :=
  let s := sort_asc (fun q : Q => q) (map (coord obj) l) in
  let n := length l in
  if Nat.odd n then nth ((n - 1) / 2) s 0%Q
  else ((nth ((n - 1) / 2) s 0 + nth (n / 2) s 0) / 2)%Q.

(** neorl/multi/tools.py:222-236, 304-328: the two ways to cut at the median: values equal to it
    go with the larger (a) or with the smaller (b) ones. *)
Definition above_a (obj : nat) (med : Q) (l : list key) : list key := filter (fun f => Qle_bool med (coord obj f)) l.
Definition below_a (obj : nat) (med : Q) (l : list key) : list key := filter (fun f => Qltb (coord obj f) med) l.
Definition above_b (obj : nat) (med : Q) (l : list key) : list key := filter (fun f => Qltb med (coord obj f)) l.
Definition below_b (obj : nat) (med : Q) (l : list key) : list key := filter (fun f => Qle_bool (coord obj f) med) l.
Definition zlen {A} (l : list A) : Z := Z.of_nat (length l).

(** neorl/multi/tools.py:216-243 splitA. *)
Definition splitA (l : list key) (obj : nat) : list key * list key :=
  let med := median obj l in
  let bal_a := Z.abs (zlen (above_a obj med l) - zlen (below_a obj med l)) in
  let bal_b := Z.abs (zlen (above_b obj med l) - zlen (below_b obj med l)) in
  if (bal_a <=? bal_b)%Z then (above_a obj med l, below_a obj med l)
  else (above_b obj med l, below_b obj med l).

(** neorl/multi/tools.py:296-334 splitB: best1, best2, worst1, worst2. *)
Definition splitB (best worst : list key) (obj : nat) : list key * list key * list key * list key :=
  let med := median obj (if length worst <? length best then best else worst) in
  let bal_a := Z.abs (zlen (above_a obj med best) - zlen (below_a obj med best)
                      + zlen (above_a obj med worst) - zlen (below_a obj med worst)) in
  let bal_b := Z.abs (zlen (above_b obj med best) - zlen (below_b obj med best)
                      + zlen (above_b obj med worst) - zlen (below_b obj med worst)) in
  if (bal_a <=? bal_b)%Z
  then (above_a obj med best, below_a obj med best, above_a obj med worst, below_a obj med worst)
  else (above_b obj med best, below_b obj med best, above_b obj med worst, below_b obj med worst).

(** bisect_right(stairs, -v): the number of leading stairs whose second objective is at least [v]. *)
Fixpoint bisect (v : Q) (stairs : list key) : nat :=
  match stairs with
  | [] => 0
  | s :: r => if Qle_bool v (coord 1 s) then S (bisect v r) else 0
  end.

(** Largest front number of a list of fitnesses ([max(..., key=front.__getitem__)]). *)
Definition top (front : fdict) (l : list key) : nat := fold_right (fun f m => Nat.max (front f) m) 0 l.

(** Delete the first element whose front number is [v]. *)
Fixpoint del_front (front : fdict) (v : nat) (l : list key) : list key :=
  match l with
  | [] => []
  | s :: r => if front s =? v then r else s :: del_front front v r
  end.

(** neorl/multi/tools.py:251-263: body of the loop of sweepA. *)
Definition sweepA_step (st : fdict * list key) (fit : key) : fdict * list key :=
  let '(front, fst_) := st in
  let idx := bisect (coord 1 fit) fst_ in
  let front := if 0 <? idx then dset front fit (Nat.max (front fit) (top front (firstn idx fst_) + 1)) else front in
  (front, firstn idx fst_ ++ fit :: del_front front (front fit) (skipn idx fst_)).
(** neorl/multi/tools.py:245-263 sweepA. *)
Definition sweepA (l : list key) (front : fdict) : fdict :=
  match l with
  | [] => front
  | f0 :: r => fst (fold_left sweepA_step r (front, [f0]))
  end.

(** neorl/multi/tools.py:348-358: put one of the best on the stairs. *)
Fixpoint find_front (front : fdict) (v : nat) (l : list key) : option key :=
  match l with
  | [] => None
  | s :: r => if front s =? v then Some s else find_front front v r
  end.
Definition push (front : fdict) (st : list key) (nb : key) : list key :=
  let place l := let i := bisect (coord 1 nb) l in firstn i l ++ nb :: skipn i l in
  match find_front front (front nb) st with
  | Some s => if Qltb (coord 1 nb) (coord 1 s) then st else place (del_front front (front nb) st)
  | None => place st
  end.
(** h[:2] <= next_best[:2] *)
Definition lex2_leb (a b : key) : bool :=
  if Qeq_bool (coord 0 a) (coord 0 b) then Qle_bool (coord 1 a) (coord 1 b) else Qltb (coord 0 a) (coord 0 b).
Fixpoint push_while (front : fdict) (h : key) (best : list key) (st : list key) : list key * list key :=
  match best with
  | [] => ([], st)
  | nb :: r => if lex2_leb h nb then push_while front h r (push front st nb) else (best, st)
  end.
(** neorl/multi/tools.py:345-364: body of the loop of sweepB: front, remaining best, stairs. *)
Definition sweepB_step (s : fdict * list key * list key) (h : key) : fdict * list key * list key :=
  let '(front, best, st) := s in
  let '(best, st) := push_while front h best st in
  let idx := bisect (coord 1 h) st in
  (if 0 <? idx then dset front h (Nat.max (front h) (top front (firstn idx st) + 1)) else front, best, st).
(** neorl/multi/tools.py:336-364 sweepB. *)
Definition sweepB (best worst : list key) (front : fdict) : fdict :=
  fst (fst (fold_left sweepB_step worst (front, best, []))).

(** li at least as good as hi on the first [k] objectives (tools.py:281). *)
Fixpoint qeqs (a b : list Q) : bool :=
  match a, b with
  | [], [] => true
  | x :: a', y :: b' => Qeq_bool x y && qeqs a' b'
  | _, _ => false
  end.
Definition covers (k : nat) (li hi : key) : bool :=
  isDominated (firstn k hi) (firstn k li) || qeqs (firstn k hi) (firstn k li).
(** neorl/multi/tools.py:279-282. *)
Definition directB1 (k : nat) (best : list key) (front : fdict) (hi : key) : fdict :=
  fold_left (fun fr li => if covers k li hi then dset fr hi (Nat.max (fr hi) (fr li + 1)) else fr) best front.
Definition directB (k : nat) (best worst : list key) (front : fdict) : fdict :=
  fold_left (directB1 k best) worst front.

(** Largest and smallest value of objective [obj] in a non-empty list. *)
Definition obj_min (obj : nat) (l : list key) : Q :=
  match map (coord obj) l with [] => 0%Q | x :: r => fold_left (fun a b => if Qltb b a then b else a) r x end.
Definition obj_max (obj : nat) (l : list key) : Q :=
  match map (coord obj) l with [] => 0%Q | x :: r => fold_left (fun a b => if Qltb a b then b else a) r x end.

(** neorl/multi/tools.py:265-294 sortNDHelperB.  [obj >= 1] (the value 0 is not reached from
    sortLogNondominated on two or more objectives). *)
Fixpoint helperB (fuel : nat) (best worst : list key) (obj : nat) (front : fdict) : outcome fdict :=
  match fuel with
  | O => Fuel
  | S f =>
      if (length worst =? 0) || (length best =? 0) then Done front
      else if (length best =? 1) || (length worst =? 1) then Done (directB (obj + 1) best worst front)
      else if obj =? 0 then Raise
      else if obj =? 1 then Done (sweepB best worst front)
      else if Qle_bool (obj_max obj worst) (obj_min obj best) then helperB f best worst (obj - 1) front
      else if Qle_bool (obj_min obj worst) (obj_max obj best) then
        let '(best1, best2, worst1, worst2) := splitB best worst obj in
        obind (helperB f best1 worst1 obj front) (fun front =>
        obind (helperB f best1 worst2 (obj - 1) front) (fun front =>
        helperB f best2 worst2 obj front))
      else Done front
  end.

(** All values of objective [obj] are equal (tools.py:207). *)
Definition all_same (obj : nat) (l : list key) : bool :=
  match l with [] => false | x :: r => forallb (fun y => Qeq_bool (coord obj y) (coord obj x)) r end.

(** neorl/multi/tools.py:193-214 sortNDHelperA, [obj >= 1] as above. *)
Fixpoint helperA (fuel : nat) (l : list key) (obj : nat) (front : fdict) : outcome fdict :=
  match fuel with
  | O => Fuel
  | S f =>
      match l with
      | [] | [_] => Done front
      | [s1; s2] =>
          Done (if isDominated (firstn (obj + 1) s2) (firstn (obj + 1) s1)
                then dset front s2 (Nat.max (front s2) (front s1 + 1)) else front)
      | _ =>
          if obj =? 0 then Raise
          else if obj =? 1 then Done (sweepA l front)
          else if all_same obj l then helperA f l (obj - 1) front
          else
            let '(best, worst) := splitA l obj in
            obind (helperA f best obj front) (fun front =>
            obind (helperB (length best + length worst + obj) best worst (obj - 1) front) (fun front =>
            helperA f worst obj front))
      end
  end.

(** neorl/multi/tools.py:161-163: distinct fitness tuples in order of first appearance. *)
Definition reduced (w : list Q) : key := map Qred w.
Fixpoint distinct (l : list key) : list key :=
  match l with
  | [] => []
  | x :: r => x :: filter (fun y => if key_dec x y then false else true) (distinct r)
  end.

(** neorl/multi/tools.py:176-180: the members in front [r], in the order of the sorted tuples. *)
Definition group (ws : list (list Q)) (k : key) : list nat :=
  filter (fun i => if key_dec (reduced (nth i ws [])) k then true else false) (seq 0 (length ws)).
Definition level (ws : list (list Q)) (fits : list key) (front : fdict) (r : nat) : list nat :=
  flat_map (group ws) (filter (fun k => front k =? r) fits).

(** neorl/multi/tools.py:183-189: keep the fronts needed for [k] members. *)
Fixpoint keep (k count : nat) (fronts : list (list nat)) : list (list nat) :=
  match fronts with
  | [] => []
  | F :: r => if k <=? count + length F then [F] else F :: keep k (count + length F) r
  end.

(** neorl/multi/tools.py:143-191 sortLogNondominated (first_front_only=False); an empty population
    is an IndexError. *)
Definition sortLogNondominated (ws : list (list Q)) (k : nat) : outcome (list (list nat)) :=
  if k =? 0 then Done []
  else match ws with
  | [] => Raise
  | w :: _ =>
      let obj := length w - 1 in
      let fits := lex_sort (distinct (map reduced ws)) in
      obind (helperA (length fits + obj + 1) fits obj (fun _ => 0)) (fun front =>
      Done (keep k 0 (map (level ws fits front) (seq 0 (top front fits + 1)))))
  end.
