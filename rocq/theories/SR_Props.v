(** Properties C111 and C112: the annealing agent of the input files (neorl/evolu/runners/sa.py). *)
Require Import List ZArith Arith Reals Permutation.
Require Import Verif.SR_Model Verif.SR_Spec Verif.SR_Proofs Verif.SR_Reports Verif.SR_Moves Verif.SR_Runs
  Verif.SR_Final.
Import ListNotations.

(** C111: the run is a Metropolis chain: every step starts where the one before it ended and ends at the point it
    proposed exactly if that is no loss or the uniform number is at most exp(gain / temperature); the rewards are
    the answers of the environment. *)
Theorem C111_chain : forall fuel c fit raws D s,
  build fuel c fit raws D = Done s ->
  exists x0, linked x0 (fit 0%nat x0) (s_events s) /\
    forall k e, nth_error (s_events s) k = Some e ->
      e_new_r e = fit (S k) (e_new e) /\ e_alpha e = d_alpha (D (S k)).
Proof. exact chain_holds. Qed.
Print Assumptions C111_chain.

(** C111: every report shows the best reward of all points evaluated so far, the initial one included, with the
    first point that had it, and the temperature of its step. *)
Theorem C111_best : forall fuel c fit raws D s x0 r0 r,
  build fuel c fit raws D = Done s -> linked x0 r0 (s_events s) -> In r (s_reports s) ->
  first_best (evaluated x0 r0 (firstn (r_step r) (s_events s))) (r_x r) (r_best r) /\
  exists e, nth_error (s_events s) (r_step r - 1) = Some e /\ r_temp r = e_temp e.
Proof. exact best_holds. Qed.
Print Assumptions C111_best.

(** C111: a completed run makes one move more than [steps]. *)
Theorem C111_count : forall fuel c fit raws D s,
  build fuel c fit raws D = Done s -> length (s_events s) = S (c_steps c).
Proof. exact build_count. Qed.
Print Assumptions C111_count.

(** C111: the steps reported are the multiples of [check_freq] and the step [steps]. *)
Theorem C111_reports : forall fuel c fit raws D s,
  build fuel c fit raws D = Done s ->
  forall k, In k (map r_step (s_reports s)) <->
            (1 <= k <= S (c_steps c) /\ (k mod c_freq c = 0 \/ k = c_steps c)).
Proof. exact build_reports. Qed.
Print Assumptions C111_reports.

(** C111: the rates of a report are those of the steps since the report before it: it divides the numbers of
    accepted and of improving proposals among them by their number, which is not zero. *)
Theorem C111_rates : forall fuel c fit raws D s,
  build fuel c fit raws D = Done s ->
  Forall2 (fun w r =>
      r_trials r = snd w - fst w /\ fst w < snd w /\
      counts accepted (firstn (snd w - fst w) (skipn (fst w) (s_events s))) (r_accepts r) /\
      counts improving (firstn (snd w - fst w) (skipn (fst w) (s_events s))) (r_improves r))
    (windows 0 (map r_step (s_reports s))) (s_reports s).
Proof. exact build_rates. Qed.
Print Assumptions C111_rates.

(** C111: for 0 < Tmin < Tmax the temperature falls from step to step and stays positive, under each schedule. *)
Theorem C111_cools : forall fuel c fit raws D s k e e',
  build fuel c fit raws D = Done s ->
  (0 < c_tmin c)%R -> (c_tmin c < c_tmax c)%R -> c_steps c <> 0 ->
  nth_error (s_events s) k = Some e -> nth_error (s_events s) (S k) = Some e' ->
  (0 < e_temp e' < e_temp e)%R.
Proof. exact build_cools. Qed.
Print Assumptions C111_cools.

(** C111: fast cooling is geometric between Tmax and Tmin. *)
Theorem C111_fast : forall fuel c fit raws D s k e,
  build fuel c fit raws D = Done s -> c_cooling c = Fast ->
  (0 < c_tmin c)%R -> (0 < c_tmax c)%R -> c_steps c <> 0 ->
  nth_error (s_events s) k = Some e ->
  e_temp e = (c_tmax c * Rpower (c_tmin c / c_tmax c) (INR (S k) / INR (c_steps c)))%R.
Proof. exact build_fast. Qed.
Print Assumptions C111_fast.

(** C111: in step k Boltzmann cooling is at Tmax / ln (k + 1), Cauchy cooling at Tmax / (k + 1). *)
Theorem C111_slow : forall fuel c fit raws D s k e,
  build fuel c fit raws D = Done s -> nth_error (s_events s) k = Some e ->
  (c_cooling c = Boltzmann -> e_temp e = (c_tmax c / ln (INR (S k) + 1))%R) /\
  (c_cooling c = Cauchy -> e_temp e = (c_tmax c / (INR (S k) + 1))%R).
Proof. exact build_slow. Qed.
Print Assumptions C111_slow.

(** C111: a card that can be carried out is carried out to the end. *)
Theorem C111_total : forall fuel c fit raws D,
  runnable fuel c D -> exists s, build fuel c fit raws D = Done s.
Proof. exact build_total. Qed.
Print Assumptions C111_total.

(** C111: the best point can be missing from every report: the move after the last one asked for is reported only if
    [check_freq] divides [steps + 1]. *)
Theorem C111_last_refuted : forall fuel c raws D,
  runnable fuel c D -> S (c_steps c) mod c_freq c <> 0 ->
  exists fit s e, build fuel c fit raws D = Done s /\ In e (s_events s) /\
    forall r, In r (s_reports s) -> (r_best r < e_new_r e)%R.
Proof. exact last_unreported. Qed.
Print Assumptions C111_last_refuted.

(** C111: with fast cooling step [steps] is at Tmin and the move after it below Tmin. *)
Theorem C111_below_refuted : forall fuel c fit raws D s,
  build fuel c fit raws D = Done s -> c_cooling c = Fast ->
  (0 < c_tmin c)%R -> (c_tmin c < c_tmax c)%R -> c_steps c <> 0 ->
  exists e e', nth_error (s_events s) (c_steps c - 1) = Some e /\ e_temp e = c_tmin c /\
               nth_error (s_events s) (c_steps c) = Some e' /\ (e_temp e' < c_tmin c)%R.
Proof. exact build_below. Qed.
Print Assumptions C111_below_refuted.

(** C111: Boltzmann cooling starts above Tmax, Cauchy cooling at half of Tmax. *)
Theorem C111_first_refuted : forall fuel c fit raws D s,
  build fuel c fit raws D = Done s -> (0 < c_tmax c)%R ->
  exists e, nth_error (s_events s) 0 = Some e /\
    (c_cooling c = Boltzmann -> (c_tmax c < e_temp e)%R) /\
    (c_cooling c = Cauchy -> e_temp e = (c_tmax c / 2)%R).
Proof. exact build_first. Qed.
Print Assumptions C111_first_refuted.

(** C111: an initial state of two or more numbers in the card raises, since an array is compared with None. *)
Theorem C111_start_raises : forall fuel c fit raws D x,
  c_start c = Some x -> 2 <= length x -> build fuel c fit raws D = Raises.
Proof. exact build_start_raises. Qed.
Print Assumptions C111_start_raises.

(** C111: a card without bounds, which are optional, raises; the shuffling moves are never reached. *)
Theorem C111_unbounded_raises : forall fuel c fit raws D,
  c_lb c = None \/ c_ub c = None -> build fuel c fit raws D = Raises.
Proof. exact build_unbounded_raises. Qed.
Print Assumptions C111_unbounded_raises.

(** C112: every point evaluated has [xsize] coordinates, each in its range, if the rows of the dataset have. *)
Theorem C112_in_box : forall fuel c fit raws D s,
  build fuel c fit raws D = Done s -> good_bounds c -> c_start c = None ->
  (c_swap c = Kbs -> forall r, In r (c_rows c) -> in_box c r /\ length r = c_size c) ->
  exists x0, in_box c x0 /\ length x0 = c_size c /\ linked x0 (fit 0%nat x0) (s_events s) /\
    forall e, In e (s_events s) -> in_box c (e_new e) /\ length (e_new e) = c_size c.
Proof. exact build_box. Qed.
Print Assumptions C112_in_box.

(** C112: [singleswap] proposes a point that differs from the present one in exactly one coordinate. *)
Theorem C112_single : forall fuel c fit raws D s,
  build fuel c fit raws D = Done s -> c_swap c = Single ->
  forall e, In e (s_events s) -> exists i, i < c_size c /\ differ_at [i] (e_from e) (e_new e) /\ i < length (e_from e).
Proof. exact build_single. Qed.
Print Assumptions C112_single.

(** C112: [dualswap] proposes a point that differs from the present one in exactly two coordinates. *)
Theorem C112_dual : forall fuel c fit raws D s,
  build fuel c fit raws D = Done s -> c_swap c = Dual ->
  forall e, In e (s_events s) -> exists i j, i < j < c_size c /\ differ_at [i; j] (e_from e) (e_new e) /\
    j < length (e_from e).
Proof. exact build_dual. Qed.
Print Assumptions C112_dual.

(** C112: [fullswap] with a range for each coordinate changes only coordinates whose coin is below [indpb]. *)
Theorem C112_full : forall fuel c fit raws D s k e i,
  build fuel c fit raws D = Done s -> c_swap c = Full ->
  (forall lb, c_lb c = Some lb -> length lb <> 1) ->
  nth_error (s_events s) k = Some e ->
  nth_error (e_new e) i <> nth_error (e_from e) i -> (d_coins (D (S k)) i < c_indpb c)%R.
Proof. exact build_full. Qed.
Print Assumptions C112_full.

(** C112: [fullswap] with one range for all coordinates draws every one of them again, whatever [indpb]. *)
Theorem C112_full_refuted : forall fuel c fit raws D s k e lo hi,
  build fuel c fit raws D = Done s -> c_swap c = Full ->
  c_lb c = Some [lo] -> c_ub c = Some [hi] ->
  nth_error (s_events s) k = Some e ->
  e_new e = map (fun i => value_of lo hi (d_ints (D (S k)) i)) (seq 0 (length (e_from e))).
Proof. exact build_full_one. Qed.
Print Assumptions C112_full_refuted.

(** C112: [kbs] uses every row of the dataset once before it uses any row again. *)
Theorem C112_rows : forall fuel c fit raws D s,
  build fuel c fit raws D = Done s ->
  exists bs cur, rows_used (s_events s) = concat bs ++ cur /\
    Forall (fun b => Permutation b (seq 0 (length (c_rows c)))) bs /\
    NoDup cur /\ incl cur (seq 0 (length (c_rows c))).
Proof. exact build_rows. Qed.
Print Assumptions C112_rows.

(** C112: a proposal of [kbs] is the row drawn if the coin is below [indpb_kbs]; otherwise it changes only
    coordinates whose coin is below [indpb]. *)
Theorem C112_row_point : forall fuel c fit raws D s k e,
  build fuel c fit raws D = Done s -> c_swap c = Kbs -> nth_error (s_events s) k = Some e ->
  ((d_kcoin (D (S k)) < c_pkbs c)%R /\ exists j, e_row e = Some j /\ nth_error (c_rows c) j = Some (e_new e)) \/
  ((c_pkbs c <= d_kcoin (D (S k)))%R /\ e_row e = None /\
   forall i, nth_error (e_new e) i <> nth_error (e_from e) i -> (d_coins (D (S k)) i < c_indpb c)%R).
Proof. exact build_row_point. Qed.
Print Assumptions C112_row_point.

(** C112: [quadswap] with a range for each coordinate never moves: every point evaluated is the initial one. *)
Theorem C112_quad_refuted : forall fuel c fit raws D s,
  build fuel c fit raws D = Done s -> c_swap c = Quad ->
  exists x0, linked x0 (fit 0%nat x0) (s_events s) /\
    forall e, In e (s_events s) -> e_from e = x0 /\ e_new e = x0.
Proof. exact build_quad. Qed.
Print Assumptions C112_quad_refuted.

(** C112: [quadswap] with one range for all coordinates never completes: it adds a number to a list. *)
Theorem C112_quad_raises : forall fuel c fit raws D lo hi,
  c_swap c = Quad -> c_lb c = Some [lo] -> c_ub c = Some [hi] ->
  forall s, build fuel c fit raws D <> Done s.
Proof. exact build_quad_raises. Qed.
Print Assumptions C112_quad_raises.

(** C112: [singleswap] and [dualswap] need two coordinates, [quadswap] four; with fewer no run completes. *)
Theorem C112_small_raises : forall fuel c fit raws D,
  ((c_swap c = Single \/ c_swap c = Dual) /\ c_size c < 2) \/ (c_swap c = Quad /\ c_size c < 4) ->
  forall s, build fuel c fit raws D <> Done s.
Proof. exact build_small_raises. Qed.
Print Assumptions C112_small_raises.

(** C112: with ranges of one number [singleswap] and [dualswap] draw for ever, whatever the random numbers. *)
Theorem C112_constant_refuted : forall fuel c fit raws D,
  good_bounds c -> c_start c = None -> c_cooling c <> OtherCooling -> 2 <= c_size c ->
  c_swap c = Single \/ c_swap c = Dual -> c_lb c = c_ub c ->
  build fuel c fit raws D = Loops.
Proof. exact build_constant. Qed.
Print Assumptions C112_constant_refuted.
