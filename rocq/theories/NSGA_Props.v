(** C31, C52: runs of NSGA-II and NSGA-III. *)
From Coq Require Import List Arith ZArith QArith Bool.
From Verif Require Import Base Space_Model Space_Spec Opt_Model ES_Model ES_Spec ND_Spec NSGA_Model NSGA_Spec NSGA_Proofs NSGA_Top NSGA_Demo.
Import ListNotations.
Open Scope nat_scope.

(** C31: what x_opt and y_opt are: x_opt[f] is the member of the final front that is WORST in
    objective f, y_opt[f] the value in objective f of some evaluated point. *)
Theorem C31_reported expf tau tau' m fit p alg sort_log nobj init drs ngen st : nsga_ok fit nobj p alg init ->
  nsga_evolute expf tau tau' m fit p alg sort_log drs init ngen = Done st ->
  length (out_x st) = nobj /\ length (out_y m st) = nobj /\
  (forall f x, nth_error (out_x st) f = Some x -> exists v, In (x, v) (out_front m st) /\
     forall x' v', In (x', v') (out_front m st) -> (as_max m (nth f v 0) <= as_max m (nth f v' 0))%Q) /\
  (forall f y, nth_error (out_y m st) f = Some y -> exists x, In x (s_seen st) /\ (y == nth f (fit x) 0)%Q).
Proof. exact (fun H => report_user expf tau tau' m fit p alg sort_log nobj init H drs ngen st). Qed.
Print Assumptions C31_reported.

(** C31: so y_opt[f] need not be the best value of objective f: when maximising, the reported
    value is 0 and the front has a member with value 10 ... *)
Theorem C31_best_max_refuted : nsga_ok nd_fit 2 (nd_par 2) NSGA2 two_init /\
  exists st, nsga_evolute one zero zero Mmax nd_fit (nd_par 2) NSGA2 true (two_draws Mmax) two_init 1 = Done st /\
    In ([10; 0], [10; 0])%Q (out_front Mmax st) /\ exists y, nth_error (out_y Mmax st) 0 = Some y /\ (y == 0)%Q.
Proof. exact (conj two_ok two_max). Qed.
Print Assumptions C31_best_max_refuted.

(** ... when minimising, 10 and 0. *)
Theorem C31_best_min_refuted : nsga_ok nd_fit 2 (nd_par 2) NSGA2 two_init /\
  exists st, nsga_evolute one zero zero Mmin nd_fit (nd_par 2) NSGA2 true (two_draws Mmin) two_init 1 = Done st /\
    In ([0; 10], [0; 10])%Q (out_front Mmin st) /\ exists y, nth_error (out_y Mmin st) 0 = Some y /\ (y == 10)%Q.
Proof. exact (conj two_ok two_min). Qed.
Print Assumptions C31_best_min_refuted.

(** C31: nor is y_opt[f] the value of x_opt[f]. *)
Theorem C31_paired_refuted : nsga_ok nd_fit 2 (nd_par 2) NSGA2 gap_init /\
  exists st x y, nsga_evolute one zero zero Mmax nd_fit (nd_par 2) NSGA2 true gap_draws gap_init 2 = Done st /\
    nth_error (out_x st) 0 = Some x /\ nth_error (out_y Mmax st) 0 = Some y /\ (y == 5)%Q /\ (nth 0 (nd_fit x) 0 == 0)%Q.
Proof. exact (conj gap_ok gap_found). Qed.
Print Assumptions C31_paired_refuted.

(** C52: the returned front is a nonempty set of evaluated points of the space with their own
    values, none better than another; every evaluated point is in the space. *)
Theorem C52_front expf tau tau' m fit p alg sort_log nobj init drs ngen st : nsga_ok fit nobj p alg init ->
  nsga_evolute expf tau tau' m fit p alg sort_log drs init ngen = Done st ->
  out_front m st <> [] /\
  Forall (was_evaluated fit (s_seen st)) (out_front m st) /\
  Forall (fun xv => feasible (p_dims p) (fst xv)) (out_front m st) /\
  Forall (feasible (p_dims p)) (s_seen st) /\
  (forall a b, In a (out_front m st) -> In b (out_front m st) -> ~ better m (snd a) (snd b)).
Proof. exact (fun H => front_ok expf tau tau' m fit p alg sort_log nobj init H drs ngen st). Qed.
Print Assumptions C52_front.

(** C52: as long as no generation has more than mu nondominated members, the returned front
    is the Pareto front of everything evaluated in the run. *)
Theorem C52_complete expf tau tau' m fit p alg sort_log nobj init drs ngen st : nsga_ok fit nobj p alg init ->
  nsga_evolute expf tau tau' m fit p alg sort_log drs init ngen = Done st -> s_cut st = false ->
  (forall x xv, In x (s_seen st) -> In xv (out_front m st) -> ~ better m (fit x) (snd xv)) /\
  (forall x, In x (s_seen st) -> exists xv, In xv (out_front m st) /\ no_worse m (snd xv) (fit x)).
Proof. exact (fun H => front_complete expf tau tau' m fit p alg sort_log nobj init H drs ngen st). Qed.
Print Assumptions C52_complete.

(** C52: otherwise a returned member can be dominated by a point evaluated earlier. *)
Theorem C52_complete_refuted : nsga_ok nd_fit 2 (nd_par 3) NSGA2 cut_init /\
  exists st, nsga_evolute one zero zero Mmax nd_fit (nd_par 3) NSGA2 true cut_draws cut_init 2 = Done st /\
    exists x v, In (x, v) (out_front Mmax st) /\ exists x', In x' (s_seen st) /\ better Mmax (nd_fit x') v.
Proof. exact (conj cut_ok cut_found). Qed.
Print Assumptions C52_complete_refuted.

(** C52: a run with legal settings ends normally. *)
Theorem C52_total expf tau tau' m fit p alg sort_log nobj init drs ngen : nsga_ok fit nobj p alg init ->
  (forall q, 0 < expf q)%Q -> (0 < p_smin p)%Q -> (p_smax p <= 1)%Q ->
  (p_blend p = true \/ 2 <= length (p_dims p)) -> 1 <= ngen ->
  exists st, nsga_evolute expf tau tau' m fit p alg sort_log drs init ngen = Done st.
Proof. exact (fun H => total_run expf tau tau' m fit p alg sort_log nobj init H drs ngen). Qed.
Print Assumptions C52_total.

Example C52_demo : nsga_ok nd_fit 2 (nd_par 2) NSGA2 two_init /\
  exists st, nsga_evolute one zero zero Mmax nd_fit (nd_par 2) NSGA2 true (two_draws Mmax) two_init 1 = Done st /\
    s_cut st = false /\ length (out_front Mmax st) = 2.
Proof. exact (conj two_ok two_whole). Qed.
