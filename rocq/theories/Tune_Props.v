(** C44 and C61: the grid and random tuners. *)
From Coq Require Import String List Arith ZArith QArith Bool Permutation.
From Verif Require Import Base Space_Model Space_Spec Opt_Model Env_Model Env_Spec Tune_Model Tune_Spec Tune_Proofs Tune_Demo.
Import ListNotations.
Open Scope nat_scope.

(** The cases of the grid tuner: every combination once, in lexicographic order. *)
Theorem C44_cases : forall g : list (string * list val), let ls := map snd g in
  length (grid_cases g) = count ls /\
  (forall js, positions ls js -> exists vs, values_at ls js vs /\ nth_error (grid_cases g) (rank ls js) = Some vs) /\
  (forall i, i < count ls -> exists js, positions ls js /\ rank ls js = i /\ forall ks, positions ls ks -> rank ls ks = i -> ks = js) /\
  (forall js ks, positions ls js -> positions ls ks -> (lex js ks <-> rank ls js < rank ls ks)).
Proof. exact (fun g => product_ok (map snd g)). Qed.
Print Assumptions C44_cases.

(** The score of case [i] depends on case [i] alone; a failing case is reported in its row only. *)
Theorem C44_scores : forall fit names cases,
  length (fst (serial fit names cases)) = length cases /\
  forall i c, nth_error cases i = Some c -> nth_error (fst (serial fit names cases)) i = Some (reported fit i c).
Proof. exact serial_results. Qed.
Print Assumptions C44_scores.

(** The table has one column per hyperparameter and the scores; row [i] holds case [i]. *)
Theorem C44_table : forall names cases results, NoDup names -> ~ In "score"%string names ->
  map fst (frame names cases results) = names ++ ["score"%string] /\
  dget (frame names cases results) "score" = Some results /\
  (forall j n, nth_error names j = Some n -> exists col, dget (frame names cases results) n = Some col /\ length col = length cases /\
     forall i c v, nth_error cases i = Some c -> nth_error c j = Some v -> nth_error col i = Some (CVal v)).
Proof. exact frame_ok. Qed.
Print Assumptions C44_table.

(** The csv file has the rows of the cases that succeeded, in the order of the header. *)
Theorem C44_csv : forall fit names cases, NoDup names -> ~ In "id"%string names -> ~ In "score"%string names ->
  Forall (fun c => length c = length names) cases ->
  snd (serial fit names cases) =
  flat_map (fun w => match fit (snd w) with Some q => [CId (fst w) :: map CVal (snd w) ++ [CScore q]] | None => [] end) (combine (seq 1 (length cases)) cases).
Proof. exact serial_csv. Qed.
Print Assumptions C44_csv.

(** ... so that under the headings of the file each row shows the number, the values and the score
    of one case. *)
Theorem C44_headings : forall fit names cases row, NoDup names -> ~ In "id"%string names -> ~ In "score"%string names ->
  Forall (fun c => length c = length names) cases -> In row (snd (serial fit names cases)) ->
  length row = length (header names) /\ exists i c q, nth_error cases i = Some c /\ fit c = Some q /\
    dget (combine (header names) row) "id" = Some (CId (S i)) /\
    dget (combine (header names) row) "score" = Some (CScore q) /\
    forall j n v, nth_error names j = Some n -> nth_error c j = Some v -> dget (combine (header names) row) n = Some (CVal v).
Proof. exact csv_headings. Qed.
Print Assumptions C44_headings.

(** Whatever the order in which parallel cases end, the table is that of the serial run and the csv
    file has the same rows. *)
Theorem C44_parallel : forall fit names cases sched, Permutation sched (seq 0 (length cases)) ->
  fst (parallel fit names cases sched) = Some (fst (serial fit names cases)) /\
  Permutation (snd (parallel fit names cases sched)) (snd (serial fit names cases)).
Proof. exact parallel_ok. Qed.
Print Assumptions C44_parallel.

(** A hyperparameter called id: the rows of the csv file do not fit its header. *)
Theorem C44_csv_refuted : exists names cases row, NoDup names /\ cases = grid_cases [("id"%string, [VNum 7])] /\ names = ["id"%string] /\
  snd (serial tn_bad names cases) = [row] /\ length row <> length (header names) /\ hd_error row = Some (CVal (VNum 7)).
Proof. exact tn_bad_csv. Qed.
Print Assumptions C44_csv_refuted.

(** A hyperparameter called score: its values are missing from the table. *)
Theorem C44_table_refuted : exists names cases, NoDup names /\ cases = grid_cases [("score"%string, [VNum 7])] /\ names = ["score"%string] /\
  forall col v, dget (frame names cases (fst (serial tn_bad names cases))) "score" = Some col -> ~ In (CVal v) col.
Proof. exact tn_bad_frame. Qed.
Print Assumptions C44_table_refuted.

(** The cases of the random tuner: as many as asked, each value allowed for its hyperparameter. *)
Theorem C61_cases : forall randint uniform pick g ncases, randint_ok randint ->
  (forall t a b, (a <= b)%Q -> (a <= uniform t a b)%Q /\ (uniform t a b <= b)%Q) ->
  Forall (fun kr => wf_rtype (snd kr)) g ->
  exists cases, rand_cases randint uniform pick g ncases = Some cases /\ length cases = ncases /\
    Forall (fun c => Forall2 (fun kr v => allowed (snd kr) v) g c) cases.
Proof. exact rand_ok. Qed.
Print Assumptions C61_cases.

(** ... and they are scored, tabulated and parallelised like those of the grid tuner. *)
Theorem C61_scores : forall randint uniform pick g ncases fit cases, NoDup (map fst g) -> ~ In "score"%string (map fst g) ->
  rand_cases randint uniform pick g ncases = Some cases ->
  (forall i c, nth_error cases i = Some c -> nth_error (fst (serial fit (map fst g) cases)) i = Some (reported fit i c)) /\
  dget (frame (map fst g) cases (fst (serial fit (map fst g) cases))) "score" = Some (fst (serial fit (map fst g) cases)) /\
  forall sched, Permutation sched (seq 0 (length cases)) -> fst (parallel fit (map fst g) cases sched) = Some (fst (serial fit (map fst g) cases)).
Proof. exact rand_scores. Qed.
Print Assumptions C61_scores.
