(** Properties C109 and C110: tuning from an input file.  Only statements. *)
From Coq Require Import Ascii String List Arith ZArith QArith Bool Permutation Sorted.
From Verif Require Import IP_Model TU_Model TU_Spec TU_Proofs TU_Run TU_Evo TU_Demo.
Import ListNotations.
Open Scope nat_scope.

(** C109: the template is the input file without its TUNE card: all lines before 'READ TUNE' and after the last 'END TUNE'. *)
Theorem C109_card : forall pre r mid e post, Forall no_mark pre -> reads r -> Forall (fun l => contains (t "READ TUNE") l = false) mid -> ends e -> Forall no_mark post ->
  template (pre ++ r :: mid ++ e :: post) = Some (List.concat (pre ++ post)).
Proof. exact template_card. Qed.
Print Assumptions C109_card.

(** C109: without a TUNE card an exception is raised. *)
Theorem C109_no_card_raises : forall lines, Forall no_mark lines -> template lines = None.
Proof. exact template_none. Qed.
Print Assumptions C109_no_card_raises.

(** C109: "only the card is removed" is false: if a line after the card mentions END TUNE, be it a comment, everything up to it is removed as well. *)
Theorem C109_comment_refuted : forall pre r mid e post c rest, Forall no_mark pre -> reads r -> Forall no_mark mid -> ends e -> Forall no_mark post -> ends c -> Forall no_mark rest ->
  template (pre ++ r :: mid ++ e :: post ++ c :: rest) = Some (List.concat (pre ++ rest)).
Proof. exact comment_end. Qed.
Print Assumptions C109_comment_refuted.

(** C109: replacing name after name is filling all holes at once: every {w} of a tuned w becomes its value, every other character of the template stays, if there are no braces inside braces and none in the values. *)
Theorem C109_fill : forall ws vs ps, Forall plain ws -> Forall plain vs -> List.length ws = List.length vs -> flat ps ->
  fill (map name ws) vs (source ps) = Some (filled (combine ws vs) ps).
Proof. exact fill_filled. Qed.
Print Assumptions C109_fill.

(** C109: with braces inside braces that is false: the file depends on the order of the names in the card. *)
Theorem C109_nested_refuted : fill [name (t "b"); name (t "ac")] [t "c"; t "X"] (t "{a{b}}") = Some (t "X") /\ fill [name (t "ac"); name (t "b")] [t "X"; t "c"] (t "{a{b}}") = Some (t "{ac}").
Proof. exact nested. Qed.
Print Assumptions C109_nested_refuted.

(** C109: gridtune writes a file for every combination of the listed values, numbered from 1, each once if no value is listed twice, and each file is the template with that combination. *)
Theorem C109_grid : forall V isspace to_int to_float (to_str : text -> V) show lines card ps ws,
  let values := map (fun kv => map (element isspace to_int to_float to_str) (split "," (snd kv))) (tuned_items card) in
  template lines = Some (source ps) -> flat ps -> map fst (tuned_items card) = map name ws -> Forall plain ws ->
  (forall l v, In l values -> In v l -> plain (show v)) -> (forall w, In w ws -> In (Hole w) ps) ->
  exists cs, grid_cases isspace to_int to_float to_str show lines card = Some cs
    /\ map fst cs = seq 1 (times (map (@List.length V) values))
    /\ (forall combo, In combo (map (fun c => fst (snd c)) cs) <-> Forall2 (fun v l => In v l) combo values)
    /\ (Forall (@NoDup V) values -> NoDup (map (fun c => fst (snd c)) cs))
    /\ (forall k combo file, In (k, (combo, file)) cs -> file = filled (combine ws (map show combo)) ps).
Proof. exact grid_all. Qed.
Print Assumptions C109_grid.

(** C109: the last parameter changes fastest: of case k + 1, parameter j has the value whose place is k divided by the number of combinations of the later parameters, modulo the number of its values. *)
Theorem C109_order : forall V isspace to_int to_float (to_str : text -> V) show lines card ps ws,
  let values := map (fun kv => map (element isspace to_int to_float to_str) (split "," (snd kv))) (tuned_items card) in
  template lines = Some (source ps) -> flat ps -> map fst (tuned_items card) = map name ws -> Forall plain ws ->
  (forall l v, In l values -> In v l -> plain (show v)) -> (forall w, In w ws -> In (Hole w) ps) ->
  forall cs, grid_cases isspace to_int to_float to_str show lines card = Some cs ->
  forall k, k < times (map (@List.length V) values) -> forall j l, nth_error values j = Some l ->
  exists c, nth_error cs k = Some c /\ nth_error (fst (snd c)) j = nth_error l (k / times (map (@List.length V) (skipn (S j) values)) mod List.length l).
Proof. exact grid_order. Qed.
Print Assumptions C109_order.

(** C109: a tuned name that is no hole of the template raises. *)
Theorem C109_unused_raises : forall V isspace to_int to_float (to_str : text -> V) show lines card ps w,
  template lines = Some (source ps) -> flat ps -> plain w -> In (name w) (map fst (tuned_items card)) -> ~ In (Hole w) ps ->
  grid_cases isspace to_int to_float to_str show lines card = None.
Proof. exact grid_unused. Qed.
Print Assumptions C109_unused_raises.

(** C109: in whatever order the cases finish, tune.csv has the rows of the successful cases in the order of their numbers, and every case has a row or is counted as failed. *)
Theorem C109_log : forall V rewards n_last (combos : list (list V)) finish, let cases := combine (seq 1 (List.length combos)) combos in Permutation cases finish ->
  fst (run_cases rewards n_last cases finish) = opt_list (map (fun c => case_object rewards n_last (fst c) (snd c)) cases)
  /\ List.length (fst (run_cases rewards n_last cases finish)) + snd (run_cases rewards n_last cases finish) = List.length combos.
Proof. exact @run_log. Qed.
Print Assumptions C109_log.

(** C109: a row has the values of its case, the mean of its last n_last_episodes rewards (of all if there are fewer, or for 0) and its greatest reward. *)
Theorem C109_row : forall V rewards n_last x (v : list V) early late, rewards x = Some (early ++ late) -> late <> [] ->
  List.length late = n_last \/ early = [] /\ (List.length late <= n_last \/ n_last = 0) ->
  exists r, case_object rewards n_last x v = Some r /\ rid r = x /\ rvals r = v /\ rmean r = (qsum late / inject_Z (Z.of_nat (List.length late)))%Q
    /\ In (rmax r) (early ++ late) /\ (forall q, In q (early ++ late) -> (q <= rmax r)%Q).
Proof. exact @row_value. Qed.
Print Assumptions C109_row.

(** C109: the first row of the summary has the greatest mean reward of all rows, however equal ones are ranked. *)
Theorem C109_best : forall V (rows ranked : list (row V)) r rest, Permutation rows ranked -> StronglySorted (fun a b => (rmean b <= rmean a)%Q) ranked ->
  top ranked = r :: rest -> In r rows /\ forall s, In s rows -> (rmean s <= rmean r)%Q.
Proof. exact @best_first. Qed.
Print Assumptions C109_best.

(** C110: randtune writes exactly ncases files, numbered from 1, each the template with a value of its own range for every parameter. *)
Theorem C110_random : forall V isspace int_of float_of (elem : text -> V) show lines card ncases x ps ws ds,
  template lines = Some (source ps) -> flat ps -> map fst (tuned_items card) = map name ws -> Forall plain ws -> (forall w, In w ws -> In (Hole w) ps) ->
  Forall2 (fun kv d => parse_dist isspace int_of float_of elem true (snd kv) = Some d) (tuned_items card) ds -> Forall inhabited ds ->
  (forall i j, unit (x i j)) -> (forall g, plain (show g)) ->
  exists cs, rand_cases isspace int_of float_of elem show lines card ncases x = Some cs
    /\ map fst cs = seq 1 ncases
    /\ forall k c file, In (k, (c, file)) cs -> Forall2 within ds c /\ file = filled (combine ws (map show c)) ps.
Proof. exact rand_all. Qed.
Print Assumptions C110_random.

(** C110: a parameter without a word for its distribution makes randtune raise. *)
Theorem C110_no_word_raises : forall V isspace int_of float_of (elem : text -> V) show lines card ncases x kv, In kv (tuned_items card) ->
  (forall w, In w words -> ~ In w (map (strip isspace) (split "," (snd kv)))) -> rand_cases isspace int_of float_of elem show lines card ncases x = None.
Proof. exact rand_no_word. Qed.
Print Assumptions C110_no_word_raises.

(** C110: estune and gatune, also in a run that raises: the cases are numbered 1, 2, ... in whole tens, every value is in the range of its parameter, and the reward is that of the case with these values; a run that gets to its summary had 10 * max(1, ncases // 10) cases. *)
Theorem C110_evolution : forall V fit by_name, (forall l, incl (by_name l) l) -> forall (ds : list (dist V)) ncases init x, (forall i j, unit (init i j)) ->
  let r := es_run fit by_name ds ncases init x in
  (exists g, map ecase (fst r) = seq 1 (10 * g) /\ (snd r <> None -> g = Nat.max 1 (ncases / 10)))
  /\ forall e, In e (fst r) -> Forall2 within ds (eind e) /\ efit e = fit (ecase e) (eind e).
Proof. exact @es_log. Qed.
Print Assumptions C110_evolution.

(** C110: the parents of the next generation are five of the last ten with the greatest rewards. *)
Theorem C110_parents : forall V by_name (l : list (entry V)) pop, select by_name l = Some pop -> (forall e, In e l -> efit e <> None) ->
  exists chosen rest, Permutation l (chosen ++ rest) /\ pop = map eind chosen /\ List.length chosen = Nat.min 5 (List.length l)
    /\ forall c r, In c chosen -> In r rest -> match efit c, efit r with Some fc, Some fr => (fr <= fc)%Q | _, _ => False end.
Proof. exact @select_best. Qed.
Print Assumptions C110_parents.

(** C110: a crossover takes every value from one of the parents at its own place, the first always from the first. *)
Theorem C110_crossover : forall V a b (p q c : list (gene V)), List.length p = List.length q -> cx a b p q = Some c ->
  List.length c = List.length p /\ nth_error c 0 = nth_error p 0 /\ forall i, nth_error c i = nth_error p i \/ nth_error c i = nth_error q i.
Proof. exact @cx_nth. Qed.
Print Assumptions C110_crossover.

(** C110: with a single tuned parameter estune and gatune run their cases but never get to the summary. *)
Theorem C110_one_parameter_raises : forall V fit by_name (ds : list (dist V)) ncases init x, List.length ds <= 1 -> snd (es_run fit by_name ds ncases init x) = None.
Proof. exact @es_one_parameter. Qed.
Print Assumptions C110_one_parameter_raises.

(** C110: an integer parameter with low = high makes the second generation raise as soon as a mutation is drawn. *)
Theorem C110_constant_raises : forall V fit by_name (ds : list (dist V)) ncases init x i lo, (forall i j, unit (init i j)) -> 20 <= ncases -> nth_error ds i = Some (DInt lo lo) ->
  (exists j, j < 10 /\ Qle (1#2) (calpha (x (ncases / 10 - 1) j)) /\ Qlt (calpha (x (ncases / 10 - 1) j)) (7#10)) -> snd (es_run fit by_name ds ncases init x) = None.
Proof. exact @es_constant_int. Qed.
Print Assumptions C110_constant_raises.

(** C110: after the first ten cases, a failed case beside a successful one of the same ten makes the run raise. *)
Theorem C110_failed_raises : forall V fit by_name (ds : list (dist V)) ncases init x e1 e2 g, let r := es_run fit by_name ds ncases init x in
  In e1 (fst r) -> In e2 (fst r) -> 1 <= g -> 10 * g < ecase e1 <= 10 * g + 10 -> 10 * g < ecase e2 <= 10 * g + 10 -> efit e1 = None -> efit e2 <> None -> snd r = None.
Proof. exact @es_failed. Qed.
Print Assumptions C110_failed_raises.

(** C110: "the summary has the mean of the mean rewards and the number of failed cases" is false: with two parameters the printed mean is of the greatest rewards, with four or more of the values of the fourth, and the failed cases are always 0. *)
Theorem C110_summary_refuted : forall V fit by_name (ds : list (dist V)) ncases init x c f, snd (es_run fit by_name ds ncases init x) = Some (c, f) ->
  f = 0 /\ c = match List.length ds with 2 => MaxReward | 3 => MeanReward | _ => Value 3 end.
Proof. exact @es_reported. Qed.
Print Assumptions C110_summary_refuted.

(** C110: a run with a failed case among the first ten reports that none failed. *)
Theorem C110_failed_refuted : exists (fit : nat -> list (gene text) -> option Q) by_name ds ncases init x c f,
  (forall l, incl (by_name l) l) /\ (forall i j, unit (init i j)) /\ snd (es_run fit by_name ds ncases init x) = Some (c, f) /\ f = 0
  /\ exists e, In e (fst (es_run fit by_name ds ncases init x)) /\ efit e = None.
Proof. exact failed_unreported. Qed.
Print Assumptions C110_failed_refuted.

(** C110: bayestune without failures: the processes number their cases 1, 2, ... without repetition or gap. *)
Theorem C110_bayes : forall ncores ncases, bayes_ids ncores ncases = seq 1 (ncores * bayes_calls ncores ncases).
Proof. exact bayes_numbers. Qed.
Print Assumptions C110_bayes.

(** C110: and their number is ncases rounded down to a multiple of the processes, but at least 11 for each. *)
Theorem C110_bayes_count : forall ncores ncases, 0 < ncores ->
  List.length (bayes_ids ncores ncases) = (if ncores =? 1 then Nat.max 11 ncases else if ncases <? 11 * ncores then 11 * ncores else ncores * (ncases / ncores)).
Proof. exact bayes_count. Qed.
Print Assumptions C110_bayes_count.

(** C110: with a single tuned parameter bayestune has no column to average, and raises. *)
Theorem C110_bayes_one_parameter_raises : bayes_printed 1 = None.
Proof. exact (printed_spec 1). Qed.
Print Assumptions C110_bayes_one_parameter_raises.
