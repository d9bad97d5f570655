(** Model of the multi-objective tools: neorl/multi/tools.py (isDominated, sortNondominated,
    sortLogNondominated and its helpers, uniform_reference_points, assignCrowdingDist, niching)
    and the select methods of neorl/multi/nsgaII.py and neorl/multi/nsgaIII.py.

    A population dictionary is the list of its members in iteration order; its keys are
    distinct, so a member is named by its position.  All the functions below read only the
    fitness vectors of the members (always maximised: the wrapper of nsgaII.py:72-88 negates
    them in 'min' mode), so they take the list [ws] of fitness vectors and return positions.
    Fitness values are exact numbers, except in [fn_ltb]. *)
From Coq Require Import List Arith ZArith QArith Bool.
From Verif Require Import Base Space_Model Opt_Model.
Import ListNotations.
Open Scope nat_scope.

(** ** Dominance *)

(** neorl/multi/tools.py:35-51 isDominated: does [w2] dominate [w1]?  The loop over
    [zip(w1, w2)] stops at the end of the shorter vector; [ne] is the variable [not_equal].
    Parametric in the strict comparison [<] of the values ([x > y] is [y < x]). *)
Fixpoint dominated_loop {V} (lt : V -> V -> bool) (w1 w2 : list V) (ne : bool) : bool :=
  match w1, w2 with
  | a :: w1', b :: w2' =>
      if lt b a then false
      else if lt a b then dominated_loop lt w1' w2' true
      else dominated_loop lt w1' w2' ne
  | _, _ => ne
  end.
Definition isDominated (w1 w2 : list Q) : bool := dominated_loop Qltb w1 w2 false.

(** [<] on floats that may be NaN: false when either side is NaN. *)
Definition fn_ltb (a b : fnum) : bool :=
  match a, b with Num x, Num y => Qltb x y | _, _ => false end.
Definition isDominated_nan (w1 w2 : list fnum) : bool := dominated_loop fn_ltb w1 w2 false.

(** ** sortNondominated *)

(** Variables of neorl/multi/tools.py:77-80: dominating_fits (defaultdict(int)),
    dominated_fits (defaultdict(list)), current_front. *)
Record nd_state : Type := NdSt { nd_cnt : nat -> Z; nd_list : nat -> list nat; nd_cur : list nat }.

Section Standard.
(** [dom j i]: does member [i] dominate member [j]?
    (isDominated(map_fit_ind[j][0][1][2], map_fit_ind[i][0][1][2])). *)
Context (dom : nat -> nat -> bool).

(** neorl/multi/tools.py:84-90: body of the inner loop. *)
Definition nd_pair (i : nat) (st : nd_state) (j : nat) : nd_state :=
  if dom j i then
    NdSt (upd (nd_cnt st) j (nd_cnt st j + 1)%Z) (upd (nd_list st) i (nd_list st i ++ [j])) (nd_cur st)
  else if dom i j then
    NdSt (upd (nd_cnt st) i (nd_cnt st i + 1)%Z) (upd (nd_list st) j (nd_list st j ++ [i])) (nd_cur st)
  else st.

(** neorl/multi/tools.py:83-92: body of the outer loop; [rest] is fits[i+1:]. *)
Definition nd_row (i : nat) (rest : list nat) (st : nd_state) : nd_state :=
  let st' := fold_left (nd_pair i) rest st in
  if (nd_cnt st' i =? 0)%Z then NdSt (nd_cnt st') (nd_list st') (nd_cur st' ++ [i]) else st'.
Fixpoint nd_first (fits : list nat) (st : nd_state) : nd_state :=
  match fits with
  | [] => st
  | i :: rest => nd_first rest (nd_row i rest st)
  end.

(** neorl/multi/tools.py:106-110: one dominated member of one member of the current front. *)
Definition nd_dec (s : (nat -> Z) * list nat) (d : nat) : (nat -> Z) * list nat :=
  let '(cnt, nxt) := s in
  let c := (cnt d - 1)%Z in
  (upd cnt d c, if (c =? 0)%Z then nxt ++ [d] else nxt).
(** neorl/multi/tools.py:103-112: the body of the while loop. *)
Definition nd_peel (dl : nat -> list nat) (cur : list nat) (cnt : nat -> Z) : (nat -> Z) * list nat :=
  fold_left (fun s p => fold_left nd_dec (dl p) s) cur (cnt, []).

(** neorl/multi/tools.py:102-113: the while loop, at most [fuel] rounds; [None] when the loop
    is still running then. *)
Fixpoint nd_while (fuel : nat) (dl : nat -> list nat) (n sorted : nat) (cnt : nat -> Z) (cur : list nat)
    (fronts : list (list nat)) : option (list (list nat)) :=
  if sorted <? n then
    match fuel with
    | O => None
    | S f =>
        let '(cnt', nxt) := nd_peel dl cur cnt in
        nd_while f dl n (sorted + length nxt) cnt' nxt (fronts ++ [nxt])
    end
  else Some fronts.

(** neorl/multi/tools.py:53-115 sortNondominated on [n] members (first_front_only=False). *)
Definition nd_sort (fuel n k : nat) : option (list (list nat)) :=
  if k =? 0 then Some []
  else
    let st := nd_first (seq 0 n) (NdSt (fun _ => 0%Z) (fun _ => []) []) in
    nd_while fuel (nd_list st) (Nat.min n k) (length (nd_cur st)) (nd_cnt st) (nd_cur st) [nd_cur st].
End Standard.

(** neorl/multi/tools.py:53-115 on a population with fitness vectors [ws].  The while loop is
    given one round per member (C28_standard shows that this suffices: it never runs out). *)
Definition sortNondominated (ws : list (list Q)) (k : nat) : option (list (list nat)) :=
  nd_sort (fun j i => isDominated (nth j ws []) (nth i ws [])) (length ws) (length ws) k.

(** The same on vectors that may hold NaN, with an explicit bound on the rounds. *)
Definition sortNondominated_nan (fuel : nat) (ws : list (list fnum)) (k : nat) : option (list (list nat)) :=
  nd_sort (fun j i => isDominated_nan (nth j ws []) (nth i ws [])) fuel (length ws) k.

(** ** uniform_reference_points *)

(** neorl/multi/tools.py:525-534 gen_refs_recursive.  [pre] is the part of [ref] already
    written (coordinates 0..depth-1); [todo] is [nobj - depth]; the not yet written zeros are
    left out because each of them is overwritten before the vector is emitted. *)
Fixpoint gen_refs (todo : nat) (pre : list Q) (left total : nat) : list (list Q) :=
  match todo with
  | O => []
  | S O => [pre ++ [(inject_Z (Z.of_nat left) / inject_Z (Z.of_nat total))%Q]]
  | S t =>
      flat_map (fun i => gen_refs t (pre ++ [(inject_Z (Z.of_nat i) / inject_Z (Z.of_nat total))%Q]) (left - i) total)
        (seq 0 (left + 1))
  end.
(** neorl/multi/tools.py:514-541 uniform_reference_points, scaling=None; [p >= 1] (with p = 0
    the first quotient is a ZeroDivisionError) and [nobj >= 1] (with nobj = 0 the depth never
    equals nobj - 1 and writing ref[0] is an IndexError). *)
Definition uniform_reference_points (nobj p : nat) : option (list (list Q)) :=
  if (p =? 0) || (nobj =? 0) then None else Some (gen_refs nobj [] p p).

(** ** Crowding distance *)

Definition coord (i : nat) (w : list Q) : Q := nth i w 0%Q.

(** [sorted(..., key=..., reverse=True)]: descending, equal elements keep their order. *)
Fixpoint insert_ext {A} (key : A -> ext) (x : A) (l : list A) : list A :=
  match l with
  | [] => [x]
  | y :: r => if ext_leb (key y) (key x) then x :: l else y :: insert_ext key x r
  end.
Definition stable_ext_desc {A} (key : A -> ext) (l : list A) : list A := fold_right (insert_ext key) [] l.

Definition ext_add (a : ext) (q : Q) : ext := match a with Fin x => Fin (x + q)%Q | PInf => PInf end.

(** neorl/multi/tools.py:573-574: the loop over (prev, cur, next). *)
Fixpoint crowd_mid (i : nat) (norm : Q) (crowd : list (list Q * nat)) (dist : nat -> ext) : nat -> ext :=
  match crowd with
  | p :: ((c :: n :: _) as r) =>
      crowd_mid i norm r
        (upd dist (snd c) (ext_add (dist (snd c)) ((coord i (fst n) - coord i (fst p)) / norm)%Q))
  | _ => dist
  end.

(** neorl/multi/tools.py:566-574: one objective; the list [crowd] is sorted in place, so the
    next objective starts from this order. *)
Definition crowd_obj (nobj i : nat) (crowd : list (list Q * nat)) (dist : nat -> ext)
  : list (list Q * nat) * (nat -> ext) :=
  let crowd := sort_asc (fun e => coord i (fst e)) crowd in
  match crowd, last crowd ([], 0) with
  | [], _ => (crowd, dist)
  | a :: _, z =>
      let dist := upd (upd dist (snd a) PInf) (snd z) PInf in
      if Qeq_bool (coord i (fst z)) (coord i (fst a)) then (crowd, dist)
      else (crowd, crowd_mid i (inject_Z (Z.of_nat nobj) * (coord i (fst z) - coord i (fst a)))%Q crowd dist)
  end.
Fixpoint crowd_objs (nobj : nat) (is_ : list nat) (crowd : list (list Q * nat)) (dist : nat -> ext) : nat -> ext :=
  match is_ with
  | [] => dist
  | i :: r => let '(crowd', dist') := crowd_obj nobj i crowd dist in crowd_objs nobj r crowd' dist'
  end.

(** neorl/multi/tools.py:551-579 assignCrowdingDist: the distance of the [j]-th member of the
    front whose fitness vectors are [ws]; [None] is the implicit None returned for an empty
    front.  Vectors are assumed to have the length of the first one (otherwise IndexError). *)
Definition assignCrowdingDist (ws : list (list Q)) : option (nat -> ext) :=
  match ws with
  | [] => None
  | w :: _ =>
      let nobj := length w in
      Some (crowd_objs nobj (seq 0 nobj) (combine ws (seq 0 (length ws))) (fun _ => Fin 0%Q))
  end.

(** ** NSGA-II selection *)

(** neorl/multi/nsgaII.py:103-138 select on the fronts found by the chosen sort (lines 112-119),
    for [k] members.  CrowdDist is a dictionary keyed by member in the order of the last
    front; [sorted(None)] is a TypeError. *)
Definition crowd_pick (ws : list (list Q)) (front : list nat) : option (list nat) :=
  match assignCrowdingDist (map (fun i => nth i ws []) front) with
  | None => None
  | Some d => Some (map snd (stable_ext_desc (fun e => d (fst e)) (combine (seq 0 (length front)) front)))
  end.
Definition select2 (ws : list (list Q)) (fronts : list (list nat)) (k : nat) : option (list nat) :=
  let chosen := concat (removelast fronts) in
  if length chosen <? k then
    match crowd_pick ws (last fronts []) with
    | None => None
    | Some l => Some (chosen ++ firstn (k - length chosen) l)
    end
  else Some chosen.

(** ** NSGA-III selection *)

(** First minimum ([np.argmin]) of [d] over the list [l]. *)
Fixpoint first_min (d : nat -> Q) (l : list nat) (best : nat) : nat :=
  match l with
  | [] => best
  | x :: r => first_min d r (if Qltb (d x) (d best) then x else best)
  end.

(** [np.min] of a list of counts. *)
Fixpoint list_min (l : list nat) : option nat :=
  match l with
  | [] => None
  | x :: r => Some (match list_min r with Some m => Nat.min x m | None => x end)
  end.

(** State of the niching loop: availability mask, niche counts, selected members (newest
    last), number of shuffles made so far. *)
Record niche_state : Type := NicheSt {
  ni_av : nat -> bool; ni_cnt : nat -> nat; ni_sel : list nat; ni_t : nat }.

Section Niching.
(** [n] members of the last front, numbered in front order; [nref] reference points; [niche j]
    and [dist j] what associate_to_niche computed for member [j] (arbitrary here: the numerics
    of find_extreme_points, find_intercepts and associate_to_niche, tools.py:375-462, are not
    modelled); [shuffle t] the [t]-th call of np.random.shuffle. *)
Context (n nref : nat) (niche : nat -> nat) (dist : nat -> Q) (shuffle : nat -> list nat -> list nat).

(** neorl/multi/tools.py:492-509: one selected niche; [None]: no available member, i.e.
    an empty niche_individuals, on which both branches raise. *)
Definition niche_pick (st : niche_state) (b : nat) : option niche_state :=
  let inds := shuffle (ni_t st) (filter (fun j => (niche j =? b) && ni_av st j) (seq 0 n)) in
  match inds with
  | [] => None
  | j0 :: r =>
      let j := if ni_cnt st b =? 0 then first_min dist r j0 else j0 in
      Some (NicheSt (upd (ni_av st) j false) (upd (ni_cnt st) b (ni_cnt st b + 1))
              (ni_sel st ++ [j]) (S (ni_t st)))
  end.

(** neorl/multi/tools.py:479-509: body of the while loop. *)
Definition niche_round (k : nat) (st : niche_state) : option niche_state :=
  let avn := filter (fun b => existsb (fun j => (niche j =? b) && ni_av st j) (seq 0 n)) (seq 0 nref) in
  match list_min (map (ni_cnt st) avn) with
  | None => None
  | Some c =>
      let sel := firstn (k - length (ni_sel st))
                   (shuffle (ni_t st) (filter (fun b => ni_cnt st b =? c) avn)) in
      ofold niche_pick (NicheSt (ni_av st) (ni_cnt st) (ni_sel st) (S (ni_t st))) sel
  end.

(** neorl/multi/tools.py:465-511 niching, at most [fuel] rounds (each selects at least one). *)
Fixpoint niche_while (fuel k : nat) (st : niche_state) : outcome niche_state :=
  if length (ni_sel st) <? k then
    match fuel with
    | O => Fuel
    | S f => match niche_round k st with
             | None => Raise
             | Some st' => niche_while f k st'
             end
    end
  else Done st.
Definition niching (k : nat) (counts : nat -> nat) : outcome niche_state :=
  niche_while k k (NicheSt (fun _ => true) counts [] 0).
End Niching.

(** neorl/multi/nsgaIII.py:106-169 select on the fronts found by the chosen sort (lines 124-130).
    [niche], [dist] are what associate_to_niche returned for the members in front order (arbitrary);
    niche_counts (lines 151-153) counts the niches of all members but those of the last front:
    np.zeros(len(ref_points)) indexed by a niche < nref. *)
Definition count_niche (niche : nat -> nat) (m b : nat) : nat :=
  length (filter (fun j => niche j =? b) (seq 0 m)).
Definition select3 (nref : nat) (niche : nat -> nat) (dist : nat -> Q) (shuffle : nat -> list nat -> list nat)
    (fronts : list (list nat)) (k : nat) : outcome (list nat) :=
  let chosen := concat (removelast fronts) in
  let m := length chosen in
  let lastf := last fronts [] in
  match niching (length lastf) nref (fun j => niche (m + j)) (fun j => dist (m + j)) shuffle
          (k - m) (count_niche niche m) with
  | Done st => Done (chosen ++ map (fun j => nth j lastf 0) (ni_sel st))
  | Raise => Raise
  | Fuel => Fuel
  end.
