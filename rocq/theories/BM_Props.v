(** Theorems about the classic benchmark functions (C80). *)
From Coq Require Import List Arith Reals.
From Verif Require Import BM_Model BM_Spec BM_Proofs BM_Final BM_Schwefel.
Import ListNotations.
Open Scope R_scope.

(** C80: for every number of coordinates, each point listed as a minimum has that many coordinates and no
    point with as many coordinates has a smaller value: true for every function of the table except
    Schwefel, St and Shubert (listed as decimal approximations) and Quartic.  For Yang, whose value is
    random, whatever random numbers the two evaluations draw. *)
Theorem C80_minimum : forall b n x, exact_entry b = true -> (least_dim b <= n)%nat -> In x (bench_minima b n) ->
  length x = n /\ minimum_at (fun rnd => bench_fun rnd b) x.
Proof. exact bench_minimum. Qed.
Print Assumptions C80_minimum.

(** C80: the value there is 0, and -1 for Expo, Yang3 and Yang4. *)
Theorem C80_value : forall b rnd n x, exact_entry b = true -> (least_dim b <= n)%nat -> In x (bench_minima b n) ->
  length x = n /\ bench_fun rnd b x = Some (least_value b).
Proof. exact bench_at. Qed.
Print Assumptions C80_value.

(** C80: no other point has this value, for all of these functions but Yang (whose random weights may be
    zero), Qing (2^n minima) and Dixonprice, from two coordinates on for those that compare neighbours. *)
Theorem C80_unique : forall b rnd l, single_minimum b = true -> (single_dim b <= length l)%nat -> bench_fun rnd b l = Some (least_value b) ->
  In l (bench_minima b (length l)).
Proof. exact bench_unique. Qed.
Print Assumptions C80_unique.

(** C80: the listed points respect the listed bounds, for every function but Quartic; for Qing up to
    250000 coordinates. *)
Theorem C80_inside : forall b n x, b <> Quartic -> (b = Qing -> (n <= 500 * 500)%nat) -> In x (bench_minima b n) -> inside (bench_bounds b) x.
Proof. exact bench_inside. Qed.
Print Assumptions C80_inside.

(** C80, what is not so: with one coordinate Rosenbrock, Bohachevsky, Schaffer and Brown are 0 at every
    point, so every point is a minimum, although the table lists one. *)
Theorem C80_one_coordinate_refuted : forall b rnd x, In b [Rosenbrock; Bohachevsky; Schaffer; Brown] -> bench_fun rnd b [x] = Some 0.
Proof. exact bench_flat. Qed.
Print Assumptions C80_one_coordinate_refuted.

(** C80, what is not so: the points listed for Quartic ("-1 or 2") are not minima: every evaluation at the
    origin is smaller than every evaluation there, whatever the noise. *)
Theorem C80_quartic_refuted : forall n x rnd rnd', (1 <= n)%nat -> random01 rnd -> random01 rnd' -> In x (bench_minima Quartic n) ->
  quartic rnd' (repeat 0 n) < quartic rnd x.
Proof. exact quartic_listed. Qed.
Print Assumptions C80_quartic_refuted.

(** C80: with the same noise the origin is a minimum of Quartic. *)
Theorem C80_quartic : forall n rnd z, quartic rnd (repeat 0 n) <= quartic rnd z.
Proof. exact quartic_true. Qed.
Print Assumptions C80_quartic.

(** C80: the point listed for St is a minimum up to 10^-12 per coordinate ... *)
Theorem C80_st : forall n l, length l = n -> st (repeat (- (2903534 / 1000000)) n) - INR n / 10 ^ 12 <= st l.
Proof. exact st_near. Qed.
Print Assumptions C80_st.

(** C80, what is not so: ... but not exactly, because it is rounded to six decimals: eight decimals give a
    smaller value. *)
Theorem C80_st_refuted : forall n, (1 <= n)%nat -> st (repeat (- (290353403 / 100000000)) n) < st (repeat (- (2903534 / 1000000)) n).
Proof. exact st_better. Qed.
Print Assumptions C80_st_refuted.

(** C80: within its bounds the point listed for Schwefel is a minimum up to 10^-5 per coordinate. *)
Theorem C80_schwefel : forall n l, length l = n -> inside (bench_bounds Schwefel) l ->
  schwefel (repeat (42096874636 / 100000000) n) - INR n / 10 ^ 5 <= schwefel l.
Proof. exact schwefel_near. Qed.
Print Assumptions C80_schwefel.

(** C80, what is not so: outside its bounds Schwefel has no minimum at all: its values are below every
    number, so an optimiser that leaves the box can beat the listed point. *)
Theorem C80_schwefel_refuted : forall n M, (1 <= n)%nat -> exists z, length z = n /\ schwefel z < M.
Proof. exact schwefel_outside. Qed.
Print Assumptions C80_schwefel_refuted.
