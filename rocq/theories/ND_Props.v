(** C27-C30, C51, C53: dominance, nondominated sorting, selection and reference points. *)
From Coq Require Import List Arith ZArith QArith Bool Permutation.
From Verif Require Import Base Space_Model ND_Model ND_Spec ND_Proofs ND_Select ND_Crowd ND_Niche ND_Same NDL_Model NDL_Top NSGA_Model NSGA_Spec NSGA_Proofs ND_Demo.
Import ListNotations.
Open Scope nat_scope.

(** C27: isDominated decides Pareto dominance. *)
Theorem C27_isDominated w1 w2 : length w1 = length w2 -> (isDominated w1 w2 = true <-> dominates w2 w1).
Proof. exact (isDominated_spec w1 w2). Qed.
Print Assumptions C27_isDominated.

(** C27: so it is a strict partial order on vectors of the same length. *)
Theorem C27_order m : 
  (forall a, length a = m -> isDominated a a = false) /\
  (forall a b, length a = m -> length b = m -> isDominated a b = true -> isDominated b a = false) /\
  (forall a b c, length a = m -> length b = m -> length c = m ->
     isDominated a b = true -> isDominated b c = true -> isDominated a c = true).
Proof. exact (isDominated_order m). Qed.
Print Assumptions C27_order.

Example C27_demo : isDominated [1; 2]%Q [1; 3]%Q = true /\ isDominated [1; 2]%Q [2; 1]%Q = false /\ dominates [1; 3]%Q [1; 2]%Q.
Proof. exact dom_small. Qed.

(** C27: with NaN values there are cycles, and then the sort never ends. *)
Theorem C27_nan_refuted : exists a b c : list fnum,
  (isDominated_nan a b = true /\ isDominated_nan b c = true /\ isDominated_nan c a = true) /\
  forall fuel k, 0 < k -> sortNondominated_nan fuel [a; b; c] k = None.
Proof. exact nan_cycle. Qed.
Print Assumptions C27_nan_refuted.

(** C28: sortNondominated returns the nondomination levels, as many as needed for [k] members. *)
Theorem C28_sort ws m k : objectives m ws -> ws <> [] -> 0 < k ->
  exists fronts, sortNondominated ws k = Some fronts /\ levels ws fronts /\ just_enough (length ws) k fronts.
Proof. exact (sort_levels ws m k). Qed.
Print Assumptions C28_sort.

(** C28: levels, seen from outside: no member of a front dominates another, each is dominated
    by someone of the front before, the first front is the nondominated members. *)
Theorem C28_levels ws m k fronts : objectives m ws -> ws <> [] -> 0 < k -> sortNondominated ws k = Some fronts ->
  (forall r F i j, nth_error fronts r = Some F -> In i F -> In j F -> ~ beats ws i j) /\
  (forall r F G j, nth_error fronts r = Some F -> nth_error fronts (S r) = Some G -> In j G -> exists i, In i F /\ beats ws i j) /\
  (forall F i, nth_error fronts 0 = Some F -> (In i F <-> i < length ws /\ forall j, ~ beats ws j i)).
Proof. exact (sort_seen ws m k fronts). Qed.
Print Assumptions C28_levels.

(** C28: asked for the whole population, every member is in exactly one front. *)
Theorem C28_partition ws m fronts : objectives m ws -> ws <> [] -> sortNondominated ws (length ws) = Some fronts ->
  Permutation (concat fronts) (seq 0 (length ws)).
Proof. exact (sort_partition ws m fronts). Qed.
Print Assumptions C28_partition.

Example C28_demo : objectives 2 six /\ sortNondominated six 6 = Some [[1; 2; 3]; [5]; [0]; [4]].
Proof. exact (conj six_objectives (proj1 six_sorted)). Qed.

(** C51: the generalised (divide and conquer) sort ends and returns the same levels ... *)
Theorem C51_log_levels ws m k : 2 <= m -> objectives m ws -> ws <> [] -> 0 < k ->
  exists fronts, sortLogNondominated ws k = Done fronts /\ levels ws fronts /\ just_enough (length ws) k fronts.
Proof. exact (fun Hm Hw => sortLog_levels ws m Hm Hw k). Qed.
Print Assumptions C51_log_levels.

(** ... so the two sorts return the same fronts, up to the order within a front. *)
Theorem C51_same_fronts ws m k fa fb : 2 <= m -> objectives m ws -> ws <> [] -> 0 < k ->
  sortLogNondominated ws k = Done fa -> sortNondominated ws k = Some fb -> Forall2 (@Permutation nat) fa fb.
Proof. exact (sorts_agree ws m k fa fb). Qed.
Print Assumptions C51_same_fronts.

Example C51_demo : objectives 2 six /\ exists fs, sortLogNondominated six 6 = Done fs /\ map (@length nat) fs = [3; 1; 1; 1].
Proof. exact (conj six_objectives (proj2 six_sorted)). Qed.

(** C29: selection of NSGA-II and NSGA-III, with either sort. *)
Theorem C29_select alg g log ws m k : alg_ok alg -> objectives m ws -> (log = true -> 2 <= m) -> 0 < k -> k <= length ws ->
  exists sel, nsga_select alg g log ws k = Done sel /\ elitist ws k sel.
Proof. exact (select_ok alg g log ws m k). Qed.
Print Assumptions C29_select.

Example C29_demo : objectives 2 six /\ nsga_select NSGA2 0 false six 4 = Done [1; 2; 3; 5] /\
  alg_ok alg3 /\ exists l, nsga_select alg3 0 true six 5 = Done l /\ length l = 5.
Proof. exact (conj six_objectives (conj (proj1 six_selected) (conj alg3_ok six_selected3))). Qed.

(** C29: NSGA-III fills the last front without letting a niche get ahead, closest first. *)
Theorem C29_niches ws m k fronts nref niche dist shuffle : objectives m ws -> levels ws fronts ->
  just_enough (length ws) k fronts -> k <= length ws -> shuffles shuffle ->
  (forall j, j < length (concat fronts) -> niche j < nref) ->
  exists part, select3 nref niche dist shuffle fronts k =
      Done (concat (removelast fronts) ++ map (fun j => nth j (last fronts []) 0) part) /\
    elitist ws k (concat (removelast fronts) ++ map (fun j => nth j (last fronts []) 0) part) /\
    (let c := length (concat (removelast fronts)) in
     balanced (length (last fronts [])) (fun j => niche (c + j)) (fun b => taken niche (seq 0 c) b) part /\
     closest_first (length (last fronts [])) (fun j => niche (c + j)) (fun j => dist (c + j)) (fun b => taken niche (seq 0 c) b) part).
Proof. exact (select3_ok ws m k fronts nref niche dist shuffle). Qed.
Print Assumptions C29_niches.

(** C53: NSGA-II fills up from the last front by crowding distance, which is: infinite for a
    member that is extreme in some objective, else the sum of the normalised gaps. *)
Theorem C53_distance vs m d v j : Forall (fun w => length w = m) vs -> (forall f, f < m -> all_different vs f) ->
  assignCrowdingDist vs = Some d -> nth_error vs j = Some v ->
  ((exists f, f < m /\ extreme vs f v) -> d j = PInf) /\
  ((forall f, f < m -> ~ extreme vs f v) ->
    exists gs q, length gs = m /\ (forall f g, nth_error gs f = Some g -> gap vs m f v g) /\ d j = Fin q /\ (q == total gs)%Q).
Proof. exact (dist_spec vs m d v j). Qed.
Print Assumptions C53_distance.

(** C53: nobody left out is less crowded than somebody taken. *)
Theorem C53_least_crowded ws front l k d : NoDup front -> crowd_pick ws front = Some l ->
  assignCrowdingDist (map (fun i => nth i ws []) front) = Some d ->
  forall i j p q, nth_error front p = Some i -> nth_error front q = Some j ->
  In i (firstn k l) -> ~ In j (firstn k l) -> ext_le (d q) (d p).
Proof. exact (crowd_pick_best ws front l k d). Qed.
Print Assumptions C53_least_crowded.

(** C53: with two places per objective, the best value of every objective survives. *)
Theorem C53_best_kept ws m front l k f : Forall (fun i => length (nth i ws []) = m) front -> NoDup front ->
  crowd_pick ws front = Some l -> 2 * m <= k -> f < m -> exists i, tops ws front f i /\ In i (firstn k l).
Proof. exact (crowd_keeps_top ws m front l k f). Qed.
Print Assumptions C53_best_kept.

Example C53_demo : (forall f, f < 2 -> all_different four f) /\
  ((exists f, f < 2 /\ extreme four f [0; 10]%Q) /\ (forall f, f < 2 -> ~ extreme four f [2; 7]%Q)) /\
  exists d, assignCrowdingDist four = Some d /\ d 0 = PInf /\ d 3 = PInf /\ exists q, d 1 = Fin q /\ (q == 13#20)%Q.
Proof. exact (conj four_different (conj four_middle four_crowd)). Qed.

(** C30: the reference points are exactly the points of the grid on the simplex, without
    repetition, C(M+p-1, p) many. *)
Theorem C30_points M p pts : uniform_reference_points M p = Some pts ->
  length pts = binom (M + p - 1) p /\
  (forall i j a b, nth_error pts i = Some a -> nth_error pts j = Some b -> Forall2 Qeq a b -> i = j) /\
  (forall v, (exists w, In w pts /\ Forall2 Qeq v w) <->
             (length v = M /\ Forall (fun x => exists a, (x == fraction p a)%Q) v /\ (total v == 1)%Q)).
Proof. exact (refs_spec M p pts). Qed.
Print Assumptions C30_points.

Theorem C30_total M p : 0 < M -> 0 < p -> exists pts, uniform_reference_points M p = Some pts.
Proof. exact (refs_exists M p). Qed.
Print Assumptions C30_total.

Example C30_demo : exists pts, uniform_reference_points 3 2 = Some pts /\ length pts = 6.
Proof. exact refs_small. Qed.
