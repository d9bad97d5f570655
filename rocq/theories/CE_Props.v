(** Theorems about the CEC'2008 and CEC'2017 benchmark functions (C81, C82). *)
From Coq Require Import List Arith Reals.
From Verif Require Import BM_Model CE_Model CE_Spec CE_Cec.
Import ListNotations.
Open Scope R_scope.

(** C81: for 1 to 1000 coordinates return_global of F1 .. F6 gives the first coordinates of the data and the
    bias of the function, and no point has a smaller value. *)
Theorem C81_minimum : forall k data nx, (1 <= k <= 6)%nat -> (1 <= nx <= 1000)%nat -> (1000 <= length data)%nat ->
  c08_global k data nx = Some (firstn nx data, c08_bias k) /\ length (firstn nx data) = nx /\
  (forall x, length x = nx -> exists v, c08_fit k data x = Some v /\ c08_bias k <= v /\ (v = c08_bias k -> k <> 3%nat \/ (2 <= nx)%nat -> x = firstn nx data)).
Proof. exact c08_main. Qed.
Print Assumptions C81_minimum.

(** C81: with more than 1000 coordinates every point has the value 1. *)
Theorem C81_large : forall k data x, (1000 < length x)%nat -> c08_fit k data x = Some 1.
Proof. exact c08_large. Qed.
Print Assumptions C81_large.

(** C81, refuted beyond 1000 coordinates: return_global then gives a point with 1000 coordinates and a value
    that no point with the requested number of coordinates has. *)
Theorem C81_large_refuted : forall k data nx, (1 <= k <= 6)%nat -> length data = 1000%nat -> (1000 < nx)%nat ->
  exists v, c08_global k data nx = Some (data, v) /\ v = c08_bias k /\ v <> 1 /\ length data <> nx.
Proof. exact c08_global_short. Qed.
Print Assumptions C81_large_refuted.

(** C82: whatever the data files contain, no value of f1 .. f30 is below 100 times the number of the function. *)
Theorem C82_lower_bound : forall T k x v x', (1 <= k <= 30)%nat -> cec17 T k x = Some (Fin v, x') -> 100 * INR k <= v.
Proof. exact cec17_low. Qed.
Print Assumptions C82_lower_bound.

(** C82: with data of the official shapes f1 .. f20 have a finite value for every vector with an accepted number
    of coordinates. *)
Theorem C82_total : forall T k x, well_formed T -> (1 <= k <= 20)%nat -> In (length x) (cec17_dims k) -> exists v x', cec17 T k x = Some (Fin v, x').
Proof. exact cec17_total. Qed.
Print Assumptions C82_total.

(** C82: every other number of coordinates raises; for f11 .. f20, f29 and f30 also 2 and 20. *)
Theorem C82_other_dimensions_raises : forall T k x, (1 <= k <= 30)%nat -> ~ In (length x) (cec17_dims k) -> cec17 T k x = None.
Proof. exact cec17_raises. Qed.
Print Assumptions C82_other_dimensions_raises.

(** C82: f1 .. f8, f11, f13, f14, f15, f18 and f19 take their least value, 100 times their number, at the shift
    vector. *)
Theorem C82_optimum : forall T k nx, well_formed T -> (1 <= k <= 20)%nat -> k <> 9%nat -> has_schwefel k = false -> In nx (cec17_dims k) ->
  cec17 T k (optimum T k nx) = Some (Fin (100 * INR k), optimum T k nx).
Proof. exact cec17_optimum. Qed.
Print Assumptions C82_optimum.

(** C82, refuted for the functions with a modified Schwefel component (f10, f12, f16, f17, f20): no vector at all
    reaches 100 times the number; the shift vector misses it by at most 2e-5 per coordinate. *)
Theorem C82_schwefel_refuted : forall T k nx, well_formed T -> has_schwefel k = true -> In nx (cec17_dims k) ->
  (forall x v x', cec17 T k x = Some (v, x') -> exists r, v = Fin r /\ 100 * INR k < r) /\
  exists v, cec17 T k (optimum T k nx) = Some (Fin v, optimum T k nx) /\ 100 * INR k < v <= 100 * INR k + INR nx * (2 / 10 ^ 5).
Proof. exact cec17_schwefel. Qed.
Print Assumptions C82_schwefel_refuted.

(** C82, refuted for f9: its shift vector is not the optimum, the value there is above 900.5. *)
Theorem C82_levy_refuted : forall T nx, well_formed T -> In nx rot_dims -> exists v, cec17 T 9 (optimum T 9 nx) = Some (Fin v, optimum T 9 nx) /\ 9005 / 10 < v.
Proof. exact cec17_levy. Qed.
Print Assumptions C82_levy_refuted.

(** C82: f21 .. f30 give a number above 100 times their number at every vector that is not the shift of one of
    their components, and not-a-number at those shifts - so at the optimum; 100 times the number is not reached. *)
Theorem C82_composition_refuted : forall T k x, well_formed T -> (21 <= k <= 30)%nat -> In (length x) (cec17_dims k) ->
  exists v, cec17 T k x = Some (v, x) /\
  ((exists i, (i < comp_count k)%nat /\ x = comp_shift T k i (length x)) -> v = NaN) /\
  ((forall i, (i < comp_count k)%nat -> x <> comp_shift T k i (length x)) -> exists r, v = Fin r /\ 100 * INR k < r).
Proof. exact cec17_composition. Qed.
Print Assumptions C82_composition_refuted.

(** C82: no function but f8 changes the vector it is called with. *)
Theorem C82_argument_kept : forall T k x v x', (1 <= k <= 30)%nat -> k <> 8%nat -> cec17 T k x = Some (v, x') -> x' = x.
Proof. exact cec17_kept. Qed.
Print Assumptions C82_argument_kept.

(** C82: f8 moves every coordinate of the caller's vector by at most 1/4, and a second call with the vector it
    left returns the same value and changes nothing. *)
Theorem C82_f8_rounds : forall T x v x', cec17 T 8 x = Some (v, x') -> within_each (1 / 4) x' x /\ cec17 T 8 x' = Some (v, x').
Proof. exact cec17_f8. Qed.
Print Assumptions C82_f8_rounds.

(** C82, refuted for f8: unless all coordinates of the shift are multiples of 1/2, there is a vector within
    [-100, 100] that f8 changes into one outside. *)
Theorem C82_f8_bounds_refuted : forall T nx i s, well_formed T -> In nx rot_dims -> nth_error (optimum T 8 nx) i = Some s -> -80 <= s <= 80 -> (forall z : Z, 2 * s <> IZR z) ->
  exists x v x', length x = nx /\ inside x /\ cec17 T 8 x = Some (v, x') /\ ~ inside x'.
Proof. exact cec17_leaves. Qed.
Print Assumptions C82_f8_bounds_refuted.
