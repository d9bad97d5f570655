(** Specification vocabulary for Simulated Annealing. *)
From Coq Require Import List Arith ZArith QArith Bool.
From Verif Require Import Base Space_Model Space_Spec Opt_Model SA_Model.
Import ListNotations.
Open Scope nat_scope.

(** Uniform draws are in [0,1]. *)
Definition good_draw (dr : sdraw) : Prop := forall i t, (0 <= sd_su dr i t)%Q /\ (sd_su dr i t <= 1)%Q.

(** Admissible points: in the space with the built-in move, within the bounds with a user move. *)
Definition sa_ok (p : sa_par) (custom : option (nat -> nat -> nat -> list Q -> list Q)) (x : list Q) : Prop :=
  match custom with None => feasible (sa_dims p) x | Some _ => inside (dim_bounds (sa_dims p)) x end.

(** Admissible moves: draws in [0,1], or a user function returning vectors of the right length. *)
Definition moves_ok (p : sa_par) (custom : option (nat -> nat -> nat -> list Q -> list Q)) (drs : nat -> nat -> nat -> sdraw) : Prop :=
  match custom with
  | None => forall a b c, good_draw (drs a b c)
  | Some f => forall a b c x, length x = length (sa_dims p) -> length (f a b c x) = length (sa_dims p)
  end.

(** Within [fuel] attempts the generator yields two different values of each variable (unless
    its range is a single value). *)
Definition varied (p : sa_par) (fuel : nat) (drs : nat -> nat -> nat -> sdraw) : Prop :=
  forall a b c i d, nth_error (sa_dims p) i = Some d -> (d_lo d == d_hi d)%Q \/
    exists t1 t2, t1 < fuel /\ t2 < fuel /\
      ~ (gen_coord d (sd_su (drs a b c) i t1) (sd_sk (drs a b c) i t1) == gen_coord d (sd_su (drs a b c) i t2) (sd_sk (drs a b c) i t2))%Q.

(** Metropolis rule, all in the internal sign (larger is better): [gain] is the value of the
    candidate minus that of the current state.  A candidate is taken when it gains, or when the
    draw is at most exp(gain / temperature). *)
Definition metropolis (expf : Q -> Q) (T draw gain : Q) : Prop := (0 < gain)%Q \/ (draw <= expf (gain / T))%Q.
