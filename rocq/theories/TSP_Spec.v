(** Specification vocabulary for the travelling salesman environment. *)
From Coq Require Import List Arith ZArith QArith Bool.
From Verif Require Import Base KP_Model KP_Spec TSP_Model.
Import ListNotations.
Open Scope nat_scope.

Definition city (c : tconf) (i : nat) : Q * Q := nth (i - 1) (tc_cities c) (0, 0)%Q.
Definition cities (c : tconf) : list nat := seq 1 (length (tc_cities c)).

Section Spec.
Context (rdist : Q * Q -> Q * Q -> Z) (c : tconf).

(** Length of the way through the points, and of the closed tour. *)
Fixpoint way (ps : list (Q * Q)) : Z :=
  match ps with p :: (q :: _) as r => (rdist p q + way r)%Z | _ => 0%Z end.
Definition closed (ps : list (Q * Q)) : Z := match ps with [] => 0%Z | p :: _ => (way ps + rdist (last ps p) p)%Z end.
(** Length of the closed tour through the cities [t]. *)
Definition tour_len (t : list nat) : Z := closed (map (city c) t).

(** [x] put before position [k] of the tour. *)
Definition put (k x : nat) (t : list nat) : list nat := firstn k t ++ x :: skipn k t.

(** The tour obtained from the cities [l], in this order, each put at the first of the cheapest
    positions. *)
Inductive built : list nat -> list nat -> Prop :=
| built_first x : built [x] [x]
| built_next l t x k : built l t -> k <= length t ->
    (forall k', k' <= length t -> (tour_len (put k x t) <= tour_len (put k' x t))%Z) ->
    (forall k', k' < k -> (tour_len (put k x t) < tour_len (put k' x t))%Z) ->
    built (l ++ [x]) (put k x t).

(** A problem: at least two cities, none with first coordinate -10^6 (the mark of an empty place),
    all distances below 10^6 over the number of cities. *)
Definition wf_tsp : Prop :=
  2 <= length (tc_cities c) /\ Forall (fun p => ~ (fst p == sent)%Q) (tc_cities c) /\ 1 <= tc_len c /\
  (forall p q, In p (tc_cities c) -> In q (tc_cities c) -> (Z.of_nat (length (tc_cities c)) * rdist p q < 1000000)%Z).

(** Histories of the list methods, and their number of steps. *)
Definition tlist_op (o : top) : Prop := match o with TList acts => length acts = length (tc_cities c) | TOne _ => False | TReset => True end.
Definition is_tstep (o : top) : bool := match o with TReset => false | _ => true end.

(** Histories of the one-city methods in which resets happen only between tours; the state reached. *)
Inductive torderly (rnd : nat -> nat) : tstate -> Prop :=
| torderly_new : torderly rnd (tsp_new c)
| torderly_step st a r st' : torderly rnd st -> tsp_step_one rdist rnd c st a = Some (r, st') -> torderly rnd st'
| torderly_reset st : torderly rnd st -> t_list st = [] -> torderly rnd (tsp_reset c st).
End Spec.
