(** Property theorems C89 (ESTUNE) and C90 (BAYESTUNE). *)
From Coq Require Import String List Arith ZArith QArith Bool Permutation.
From Verif Require Import Base Space_Model Space_Spec Opt_Model Opt_Spec ES_Model ES_Spec Tune_Model Tune_Spec ET_Model ET_Spec ET_Proofs ET_Bayes ET_Demo.
Import ListNotations.
Open Scope nat_scope.

(** C89: with at least two hyperparameters and one generation tuning always returns. *)
Theorem C89_total : forall expf tau tau' b m fit drs init ngen, (forall q, 0 < expf q)%Q -> wf_space b -> 2 <= length b -> start_ok b init -> 1 <= ngen ->
  exists r, estune expf tau tau' b m fit drs init ngen = Some r.
Proof. exact et_total. Qed.
Print Assumptions C89_total.

(** C89: the table has one row per generation; it belongs to one of the ten cases tested in that generation, shows
    its score, and no other case of that generation has a better one.  Ten more cases are tested before. *)
Theorem C89_rows : forall expf tau tau' b m fit drs init ngen r, dict b -> wf_space b -> start_ok b init -> estune expf tau tau' b m fit drs init ngen = Some r ->
  length (et_rows r) = ngen /\ length (et_scores r) = ngen /\ length (et_seen r) = 10 * ngen /\ length (et_init r) = 10 /\
  forall g x s, nth_error (et_rows r) g = Some x -> nth_error (et_scores r) g = Some s ->
  In x (generation r g) /\ (exists c, case_of b x c /\ valid b c /\ (s == fit c)%Q) /\
  forall z, In z (generation r g) -> exists c, case_of b z c /\ valid b c /\ as_good m s (fit c).
Proof. exact et_rows_spec. Qed.
Print Assumptions C89_rows.

(** C89: the columns of the table. *)
Theorem C89_table : forall expf tau tau' b m fit drs init ngen r, dict b -> ~ In "score"%string (map fst b) -> wf_space b -> start_ok b init ->
  estune expf tau tau' b m fit drs init ngen = Some r ->
  map fst (et_table b r) = map fst b ++ ["score"%string] /\ dget (et_table b r) "score" = Some (map CScore (et_scores r)) /\
  forall j k p, nth_error b j = Some (k, p) -> exists col, dget (et_table b r) k = Some col /\ length col = ngen /\
    forall g x q, nth_error (et_rows r) g = Some x -> nth_error x j = Some q -> nth_error col g = Some (CVal (VNum q)).
Proof. exact et_table_spec. Qed.
Print Assumptions C89_table.

(** C89: without grids the rows are the cases themselves. *)
Theorem C89_plain : forall expf tau tau' b m fit drs init ngen r, dict b -> no_grid b -> wf_space b -> start_ok b init -> estune expf tau tau' b m fit drs init ngen = Some r ->
  forall g x s, nth_error (et_rows r) g = Some x -> nth_error (et_scores r) g = Some s -> valid b (map VNum x) /\ (s == fit (map VNum x))%Q.
Proof. exact et_plain. Qed.
Print Assumptions C89_plain.

(** C89, refuted for grids: their column shows numbers of choices; for a grid of strings none of them appears. *)
Theorem C89_grid_refuted : forall expf tau tau' b m fit drs init ngen r, dict b -> ~ In "score"%string (map fst b) -> wf_space b -> start_ok b init ->
  estune expf tau tau' b m fit drs init ngen = Some r ->
  forall j k cs, nth_error b j = Some (k, PGrid cs) -> (forall c, In c cs -> exists t, c = VStr t) ->
  exists col, dget (et_table b r) k = Some col /\ length col = ngen /\ forall c, In c cs -> ~ In (CVal c) col.
Proof. exact et_grid. Qed.
Print Assumptions C89_grid_refuted.

(** C89, refuted for the best case tested: one of the first ten can be better than every row. *)
Theorem C89_first_refuted : forall expf tau tau', exists drs r z c, start_ok d_space d_init /\ estune expf tau tau' d_space Mmax d_fit drs d_init 2 = Some r /\ length (et_rows r) = 2 /\
  In z (et_init r) /\ case_of d_space z c /\ forall s, In s (et_scores r) -> (s < d_fit c)%Q.
Proof. exact first_lost. Qed.
Print Assumptions C89_first_refuted.

(** C89: with one hyperparameter it raises as soon as one of the draws asks for a crossover. *)
Theorem C89_one_raises : forall expf tau tau' b m fit drs init ngen, wf_space b -> length b < 2 -> start_ok b init ->
  (exists g i, g < ngen /\ i < 10 /\ (od_rn (drs g i) < 7 # 10)%Q) -> estune expf tau tau' b m fit drs init ngen = None.
Proof. exact et_one. Qed.
Print Assumptions C89_one_raises.

(** C90: if it returns, the table has max(ncases,11) rows per core, all of them allowed cases, and the score of each
    is the value of the fitness called by name, for both modes. *)
Theorem C90_rows : forall search g f m, search_ok search g -> NoDup (map fst g) -> forall ncases seed ncores xs ys,
  bayestune search g f m ncases seed ncores = Some (xs, ys) ->
  Permutation (map fst g) (f_args f) /\ length xs = Nat.max 1 ncores * Nat.max 11 ncases /\ length ys = length xs /\
  forall i x y, nth_error xs i = Some x -> nth_error ys i = Some y ->
    Forall2 (fun kr v => allowed (snd kr) v) g x /\ exists vs q, reorder (map fst g) (f_args f) x vs /\ f_body f vs = Some q /\ (y == q)%Q.
Proof. exact by_sound. Qed.
Print Assumptions C90_rows.

(** C90: it returns if the arguments of the fitness are the hyperparameters and the fitness does not raise. *)
Theorem C90_total : forall search g f m, search_ok search g -> NoDup (map fst g) -> forall ncases seed ncores,
  Forall (fun kr => snd kr <> ROther) g -> Permutation (map fst g) (f_args f) -> (forall vs, f_body f vs <> None) ->
  exists r, bayestune search g f m ncases seed ncores = Some r.
Proof. exact by_total. Qed.
Print Assumptions C90_total.

(** C90: if the arguments are in the order of the dictionary, every row shows the case that has its score. *)
Theorem C90_in_order : forall search g f m, search_ok search g -> NoDup (map fst g) -> forall ncases seed ncores xs ys, f_args f = map fst g ->
  bayestune search g f m ncases seed ncores = Some (xs, ys) ->
  forall i x y, nth_error xs i = Some x -> nth_error ys i = Some y -> exists q, f_body f x = Some q /\ (y == q)%Q.
Proof. exact by_in_order. Qed.
Print Assumptions C90_in_order.

(** C90: in general the column with the name of argument number j shows the hyperparameter number j of the dictionary ... *)
Theorem C90_columns : forall search g f m, search_ok search g -> NoDup (map fst g) -> forall ncases seed ncores xs ys, ~ In "score"%string (f_args f) ->
  bayestune search g f m ncases seed ncores = Some (xs, ys) ->
  map fst (by_table f (xs, ys)) = f_args f ++ ["score"%string] /\ dget (by_table f (xs, ys)) "score" = Some (map CScore ys) /\
  forall j a k r, nth_error (f_args f) j = Some a -> nth_error g j = Some (k, r) -> exists col, dget (by_table f (xs, ys)) a = Some col /\ length col = length xs /\
    forall i x v, nth_error xs i = Some x -> nth_error x j = Some v -> nth_error col i = Some (CVal v) /\ allowed r v.
Proof. exact by_columns. Qed.
Print Assumptions C90_columns.

(** C90, refuted for other orders: ... so the values stand under wrong names, outside their range, and the score of a row is not
    that of the case it shows. *)
Theorem C90_order_refuted : exists search g f ys xs x y q, search_ok search g /\ NoDup (map fst g) /\ Permutation (map fst g) (f_args f) /\
  bayestune search g f Mmin 11 None 1 = Some (xs, ys) /\ nth_error xs 0 = Some x /\ nth_error ys 0 = Some y /\ f_body f x = Some q /\ ~ (y == q)%Q /\
  (forall v, dget (combine (f_args f) x) "x" = Some v -> ~ allowed (RInt 1 2) v) /\ dget g "x" = Some (RInt 1 2).
Proof. exact swapped. Qed.
Print Assumptions C90_order_refuted.

(** C90: if the arguments are not exactly the hyperparameters - for example one more with a default value - tuning
    raises, after all cases have been tested. *)
Theorem C90_default_raises : forall search g f m, search_ok search g -> NoDup (map fst g) -> forall ncases seed ncores,
  ~ Permutation (map fst g) (f_args f) -> bayestune search g f m ncases seed ncores = None.
Proof. exact by_default. Qed.
Print Assumptions C90_default_raises.

(** C90: one failing case makes the whole tuning raise. *)
Theorem C90_failure_raises : forall search g f m, search_ok search g -> forall ncases seed ncores s x, In s (seeds_of seed ncores) -> In x (search s (by_objective m g f) (Nat.max 11 ncases)) ->
  call_named f (combine (map fst g) x) = None -> bayestune search g f m ncases seed ncores = None.
Proof. exact by_failure. Qed.
Print Assumptions C90_failure_raises.
