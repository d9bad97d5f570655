(** Specification vocabulary for evolution strategies. *)
From Coq Require Import List Arith ZArith QArith Bool.
From Verif Require Import Base Space_Model Space_Spec Opt_Model Opt_Spec ES_Model.
Import ListNotations.
Open Scope nat_scope.

(** All strategy values lie in [smin, smax]. *)
Definition strat_ok (smin smax : Q) (s : list Q) : Prop := Forall (fun v => (smin <= v)%Q /\ (v <= smax)%Q) s.

(** A point of the space together with a strategy vector of the right length and range. *)
Definition good_pair (p : es_par) (xs : list Q * list Q) : Prop :=
  feasible (p_dims p) (fst xs) /\ length (snd xs) = length (p_dims p) /\ strat_ok (p_smin p) (p_smax p) (snd xs).

(** [c1], [c2] result from [a], [b] by exchanging exactly the positions in [p, q). *)
Definition exchanged {A} (p q : nat) (a b c1 c2 : list A) : Prop :=
  length c1 = length a /\ length c2 = length b /\
  forall i, (p <= i < q -> nth_error c1 i = nth_error b i /\ nth_error c2 i = nth_error a i) /\
            (~ (p <= i < q) -> nth_error c1 i = nth_error a i /\ nth_error c2 i = nth_error b i).

(** Smaller and larger of two numbers. *)
Definition qlo (x y : Q) : Q := if Qle_bool x y then x else y.
Definition qhi (x y : Q) : Q := if Qle_bool x y then y else x.
