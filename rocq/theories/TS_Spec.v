(** Vocabulary for C24/C26 about tabu search. *)
From Coq Require Import List Arith ZArith QArith.
From Verif Require Import Base Space_Model Space_Spec Opt_Model Opt_Spec Pop_Model Swarm_Model TS_Model.
Import ListNotations.
Open Scope nat_scope.

(** The moves made, in order. *)
Definition made (trail : list (option tstep)) : list tstep :=
  flat_map (fun o => match o with Some s => [s] | None => [] end) trail.
(** The solutions the search has stood on: the start and the target of every move. *)
Definition stood (x0 : list Q) (trail : list (option tstep)) : list (list Q) := x0 :: map ts_to (made trail).

(** Penalised values never exceed the value 1e11 the code uses as infinity. *)
Definition small_values (m : mode) (fit : list Q -> Q) (ds : list dimn) (w : Q) (ngen : nat) : Prop :=
  forall z j, inside (dim_bounds ds) z -> j <= ngen -> (as_min m (fit z) + qnat j * w <= inject_Z (10 ^ 11))%Q.

(** The numbers 1..n, once each. *)
Definition tour (n : nat) (x : list Q) : Prop := length x = n /\ forall a, 1 <= a <= n -> exists q, In q x /\ (q == qnat a)%Q.
(** Every variable has the same type and range. *)
Definition uniform_dims (ds : list dimn) : Prop := exists d, Forall (fun e => e = d) ds.
(** [v] is strictly better than [u]. *)
Definition better (m : mode) (v u : Q) : Prop := match m with Mmin => (v < u)%Q | Mmax => (u < v)%Q end.
(** [y] is [x] after the move. *)
Definition one_move (mv : tmove) (x y : list Q) : Prop :=
  match mv with
  | MSwap a b => exists i j p q, nth_error x i = Some p /\ (p == qnat a)%Q /\ nth_error x j = Some q /\ (q == qnat b)%Q /\
      length y = length x /\ nth_error y i = Some q /\ nth_error y j = Some p /\
      forall k, k <> i -> k <> j -> nth_error y k = nth_error x k
  | MCoord i => i < length x /\ length y = length x /\ forall k, k <> i -> nth_error y k = nth_error x k
  end.
