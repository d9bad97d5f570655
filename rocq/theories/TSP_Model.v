(** Model of the travelling salesman environment neorl/benchmarks/tsp.py. *)
From Coq Require Import List Arith ZArith QArith Bool.
From Verif Require Import Base Opt_Model KP_Model.
Import ListNotations.
Open Scope nat_scope.

(** tsp.py 45-50, 69: the locations of the cities, tours per episode. *)
Record tconf : Type := TConf { tc_cities : list (Q * Q); tc_len : nat }.

(** The attributes; of the four columns of the state the two coordinates. *)
Record tstate : Type := TState { t_state : list (Q * Q); t_ids : list nat; t_list : list nat; t_counter : nat; t_sub : nat;
  t_done : bool; t_best : Z; t_t : nat }.

(** What step returns: reward, done, info['x'] (cities are numbered from 1).  In the one-city methods
    info['x'] of an unfinished tour is the attribute city_list itself, which later steps extend; the
    model returns its value at the time of the step. *)
Record tresult : Type := TResult { tr_reward : Z; tr_done : bool; tr_x : list nat }.

Section TSP.
(** int(round(dist)) with dist the numpy square root of the sum of squares (tsp.py 237-238, 241-242). *)
Context (rdist : Q * Q -> Q * Q -> Z) (rnd : nat -> nat) (c : tconf).
Local Notation n := (length (tc_cities c)).

Definition all_cities : list nat := seq 1 n.
Definition no_tour : list (Q * Q) := repeat blank n.

(** tsp.py 225-244: cost of the tour in the places before the first empty one.  If the very first
    place is empty, limit_tour is -1: no edge in the loop, and index -1 is the last place. *)
Definition tour_cost (s : list (Q * Q)) : Z :=
  let '(lim, stop) := match first_blank s with Some 0 => (0, n - 1) | Some (S k) => (k, k) | None => (n - 1, n - 1) end in
  (fold_left (fun acc i => acc + rdist (nth i s blank) (nth (S i) s blank)) (seq 0 lim) 0 + rdist (nth stop s blank) (nth 0 s blank))%Z.

(** np.delete(np.insert(col, k, v), -1) on both columns (tsp.py 118-119). *)
Definition ins (k : nat) (p : Q * Q) (s : list (Q * Q)) : list (Q * Q) := removelast (firstn k s ++ p :: skipn k s).

(** tsp.py 111-124: the place with the best (largest) score above -10**6; [bk] is the value of best_k
    left by an earlier city (None: unbound). *)
Fixpoint best_pos (s : list (Q * Q)) (p : Q * Q) (ks : list nat) (bk : option nat) (mx : Z) : option nat :=
  match ks with
  | [] => bk
  | k :: r => let sc := (- tour_cost (ins k p s))%Z in if (mx <? sc)%Z then best_pos s p r (Some k) sc else best_pos s p r bk mx
  end.

(** tsp.py 216-223. *)
Definition tsp_reset (st : tstate) : tstate :=
  TState no_tour all_cities (t_list st) (t_counter st) (t_sub st) false (t_best st) (t_t st).

(** tsp.py 45-88: the constructor (distances between cities and to the origin, columns 3 and 4, not
    modelled). *)
Definition tsp_new : tstate := tsp_reset (TState no_tour all_cities [] 0 0 false (-1000000)%Z 0).

(** np.where(self.state[:,0] != -10**6.0)[0] (tsp.py 111): how many places are taken. *)
Definition taken (s : list (Q * Q)) : nat := length (filter (fun p => negb (Qeq_bool (fst p) sent)) s).

(** tsp.py 103-141 and 155-190: one city.  Columns 3 and 4 are written at place counter-1 with the
    distance to the closest other city, so the place must exist and so must another city. *)
Definition tsp_place (st : tstate) (a : nat) (bk : option nat) : option (option nat * tstate) :=
  let* p := pick_next rnd (t_t st) (t_ids st) a in
  let* loc := nth_error (tc_cities c) (fst p - 1) in
  if negb ((t_counter st <? n) && (2 <=? n)) then None
  else
    let m := taken (t_state st) in
    let* r := (if m =? 0 then Some (bk, set_nth (t_state st) (t_counter st) loc)
               else let bk' := best_pos (t_state st) loc (seq 0 m) bk (-1000000)%Z in
                    let* k := bk' in Some (bk', ins k loc (t_state st))) in
    Some (fst r, TState (snd r) (snd p) (t_list st ++ [fst p]) (S (t_counter st)) (t_sub st) (t_done st) (t_best st) (S (t_t st))).

(** tsp.py 100-141: the loop over the actions, with a reset before the first. *)
Fixpoint tsp_fill (st : tstate) (acts : list nat) (bk : option nat) : option tstate :=
  match acts with
  | [] => Some st
  | a :: r =>
      let st := if t_counter st =? 0 then tsp_reset st else st in
      let* o := tsp_place st a bk in
      tsp_fill (snd o) r (fst o)
  end.

(** tsp.py 246-255, 143-152 and 195-206: reward of a finished tour, and a new tour.  Without a new tour
    the name individual is unbound. *)
Definition tsp_finish (st : tstate) : option (Z * list nat * tstate) :=
  let score := (- tour_cost (t_state st))%Z in
  let best := if (0 <? score - t_best st)%Z then score else t_best st in
  if S (t_sub st) =? S (tc_len c) then None
  else Some (score, t_list st, TState no_tour all_cities [] (t_counter st) (S (t_sub st)) (t_done st) best (t_t st)).

(** tsp.py 210-214: the end of an episode. *)
Definition tsp_end (r : Z) (x : list nat) (st : tstate) : tresult * tstate :=
  let st' := if t_sub st =? tc_len c then TState (t_state st) (t_ids st) (t_list st) (t_counter st) 0 true (t_best st) (t_t st) else st in
  (TResult r (t_done st') x, st').

(** tsp.py 98-152, 210-214: step of ppo, a2c, acktr, neat; the action is a list. *)
Definition tsp_step_list (st : tstate) (acts : list nat) : option (tresult * tstate) :=
  let* st1 := tsp_fill (TState (t_state st) (t_ids st) (t_list st) 0 (t_sub st) (t_done st) (t_best st) (t_t st)) acts None in
  let* f := tsp_finish st1 in
  Some (tsp_end (fst (fst f)) (snd (fst f)) (snd f)).

(** tsp.py 154-214: step of acer, dqn; the action is one city. *)
Definition tsp_step_one (st : tstate) (a : nat) : option (tresult * tstate) :=
  let* o := tsp_place st a None in
  let st1 := snd o in
  match first_blank (t_state st1) with
  | None =>
      let* f := tsp_finish st1 in
      let st2 := snd f in
      Some (tsp_end (fst (fst f)) (snd (fst f)) (TState (t_state st2) (t_ids st2) (t_list st2) 0 (t_sub st2) (t_done st2) (t_best st2) (t_t st2)))
  | Some _ => Some (tsp_end (- tour_cost (t_state st1) * -1000)%Z (t_list st1) st1)
  end.

Inductive top : Type := TList (acts : list nat) | TOne (a : nat) | TReset.
Definition tsp_op (st : tstate) (o : top) : option tstate :=
  match o with
  | TList acts => option_map snd (tsp_step_list st acts)
  | TOne a => option_map snd (tsp_step_one st a)
  | TReset => Some (tsp_reset st)
  end.
End TSP.
