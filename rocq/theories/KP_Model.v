(** Model of the knapsack environment neorl/benchmarks/kp.py. *)
From Coq Require Import List Arith ZArith QArith Bool.
From Verif Require Import Base Opt_Model.
Import ListNotations.
Open Scope nat_scope.

(** kp.py 55: the mark -10**6.0 of an empty place. *)
Definition sent : Q := (- (1000000 # 1))%Q.
Definition blank : Q * Q := (sent, sent).

(** np.where(col == -10**6.0)[0][0] on the first column: the first empty place. *)
Fixpoint first_blank (s : list (Q * Q)) : option nat :=
  match s with
  | [] => None
  | p :: r => if Qeq_bool (fst p) sent then Some 0 else option_map S (first_blank r)
  end.

(** kp.py 94-98, 105-106, 130-134, 141-142: the object of an action among those left; an action that is
    too large is replaced by a random one (randint(0,-1) raises).  Ids are distinct, so the position
    found by index() is the action. *)
Definition pick_next (rnd : nat -> nat) (t : nat) (ids : list nat) (a : nat) : option (nat * list nat) :=
  let a' := if a <? length ids then a else rnd t mod length ids in
  let* x := nth_error ids a' in
  Some (x, remove_at ids a').

(** kp.py 44-69: values and weights (first and second entry), capacity, solutions per episode. *)
Record kconf : Type := KConf { kc_objs : list (Q * Q); kc_cap : Q; kc_len : nat }.

Record kstate : Type := KState { k_state : list (Q * Q); k_ids : list nat; k_list : list nat; k_counter : nat; k_sub : nat;
  k_done : bool; k_best : Q; k_t : nat }.

(** What step returns: reward, done, info['x'] (objects are numbered from 1; the flattened state is
    the attribute k_state of the new state). *)
Record kresult : Type := KResult { kr_reward : Q; kr_done : bool; kr_x : list nat }.

Section KP.
Context (rnd : nat -> nat) (c : kconf).
Local Notation n := (length (kc_objs c)).

Definition all_ids : list nat := seq 1 n.
Definition empty_bag : list (Q * Q) := repeat blank n.

(** kp.py 177-201: sums of a column up to the first empty place; without one, self.numlocs raises
    AttributeError. *)
Definition col_sum (col : Q * Q -> Q) (s : list (Q * Q)) : option Q :=
  let* k := first_blank s in
  Some (fold_left (fun acc p => (acc + col p)%Q) (firstn k s) 0%Q).

(** kp.py 169-175: counter, list of objects and number of solutions are kept. *)
Definition kp_reset (st : kstate) : kstate :=
  KState empty_bag all_ids (k_list st) (k_counter st) (k_sub st) false (k_best st) (k_t st).

(** kp.py 44-77: the constructor; a value 0 divides by zero. *)
Definition kp_new : option kstate :=
  if existsb (fun p => Qeq_bool (fst p) 0) (kc_objs c) then None
  else Some (kp_reset (KState empty_bag all_ids [] 0 0 false sent 0)).

(** kp.py 93-113 and 135-148: put one object in the bag; true if it was too heavy and taken out again.
    The third column (ratio) is not modelled. *)
Definition kp_place (st : kstate) (a : nat) : option (bool * kstate) :=
  let* p := pick_next rnd (k_t st) (k_ids st) a in
  let* ob := nth_error (kc_objs c) (fst p - 1) in
  if k_counter st <? n then
    let s := set_nth (k_state st) (k_counter st) ob in
    let* w := col_sum snd s in
    if Qltb (kc_cap c) w
    then Some (true, KState (set_nth s (k_counter st) blank) (snd p) (k_list st ++ [fst p]) (S (k_counter st)) (k_sub st) (k_done st) (k_best st) (S (k_t st)))
    else Some (false, KState s (snd p) (k_list st ++ [fst p]) (S (k_counter st)) (k_sub st) (k_done st) (k_best st) (S (k_t st)))
  else None.

(** kp.py 90-115: the loop over the actions, with a reset before the first (the test of 114 never holds,
    the list was just extended). *)
Fixpoint kp_fill (st : kstate) (acts : list nat) : option kstate :=
  match acts with
  | [] => Some st
  | a :: r =>
      let st := if k_counter st =? 0 then kp_reset st else st in
      let* o := kp_place st a in
      if fst o then Some (snd o) else kp_fill (snd o) r
  end.

(** kp.py 203-213. *)
Definition kp_stats (st : kstate) : option (Q * Q) :=
  let* score := col_sum fst (k_state st) in
  Some (score, if Qltb 0 (score - k_best st) then score else k_best st).

(** kp.py 117-126 and 149-159: reward of a finished bag, and a new bag.  Without a new bag the name
    individual is unbound. *)
Definition kp_finish (st : kstate) : option (Q * list nat * kstate) :=
  let* sc := kp_stats st in
  if S (k_sub st) =? S (kc_len c) then None
  else if length (k_list st) =? 0 then None
  else Some (fst sc, removelast (k_list st), KState empty_bag all_ids [] (k_counter st) (S (k_sub st)) (k_done st) (snd sc) (k_t st)).

(** kp.py 163-167: the end of an episode. *)
Definition kp_end (r : Q) (x : list nat) (st : kstate) : kresult * kstate :=
  let st' := if k_sub st =? kc_len c then KState (k_state st) (k_ids st) (k_list st) (k_counter st) 0 true (k_best st) (k_t st) else st in
  (KResult r (k_done st') x, st').

(** kp.py 87-126, 163-167: step of ppo, a2c, acktr, neat; the action is a list. *)
Definition kp_step_list (st : kstate) (acts : list nat) : option (kresult * kstate) :=
  let* st1 := kp_fill (KState (k_state st) (k_ids st) (k_list st) 0 (k_sub st) (k_done st) (k_best st) (k_t st)) acts in
  let* f := kp_finish st1 in
  Some (kp_end (fst (fst f)) (snd (fst f)) (snd f)).

(** kp.py 128-167: step of acer, dqn; the action is one object. *)
Definition kp_step_one (st : kstate) (a : nat) : option (kresult * kstate) :=
  let* o := kp_place st a in
  if fst o then
    let* f := kp_finish (snd o) in
    let st2 := snd f in
    Some (kp_end (fst (fst f)) (snd (fst f)) (KState (k_state st2) (k_ids st2) (k_list st2) 0 (k_sub st2) (k_done st2) (k_best st2) (k_t st2)))
  else Some (kp_end 0%Q (k_list (snd o)) (snd o)).

Inductive kop : Type := KList (acts : list nat) | KOne (a : nat) | KReset.
Definition kp_op (st : kstate) (o : kop) : option kstate :=
  match o with
  | KList acts => option_map snd (kp_step_list st acts)
  | KOne a => option_map snd (kp_step_one st a)
  | KReset => Some (kp_reset st)
  end.
End KP.
