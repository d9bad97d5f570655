(** Properties C107 and C108: the logger and its files.  Only statements. *)
From Coq Require Import Ascii String List Arith ZArith QArith Bool Permutation.
From Verif Require Import LG_Model LG_Spec LG_Proofs LG_Files LG_Demo LG_More.
Import ListNotations.
Open Scope nat_scope.

(** C107: logkv: the last value logged for a key counts, whatever is logged for other keys before and after. *)
Theorem C107_last : forall W (write : W -> dict val -> W * dict val * bool) ops1 ops2 k v l,
  no_dump ops2 -> on k ops2 = [] -> get k (vals (history write (ops1 ++ [Log k v] ++ ops2) l)) = Some v.
Proof. exact @log_last. Qed.
Print Assumptions C107_last.

(** C107: logkv_mean: if only means are logged for a key since the last dump, its value is their mean. *)
Theorem C107_mean : forall W (write : W -> dict val -> W * dict val * bool) ops k xs l,
  get k (vals l) = None /\ get k (cnts l) = None -> no_dump ops -> on k ops = map (fun x => Mean k (Num x)) xs -> xs <> [] ->
  exists q, get k (vals (history write ops l)) = Some (Num q) /\ (q == qsum xs / count xs)%Q.
Proof. exact @mean_value. Qed.
Print Assumptions C107_mean.

(** C107: a number logged between means weighs as much as all means before it together: with none before, it is forgotten. *)
Theorem C107_mixed : forall W (write : W -> dict val -> W * dict val * bool) ops k xs1 a xs2 l,
  get k (vals l) = None /\ get k (cnts l) = None -> no_dump ops ->
  on k ops = map (fun x => Mean k (Num x)) xs1 ++ [Log k (Num a)] ++ map (fun x => Mean k (Num x)) xs2 -> xs2 <> [] ->
  exists q, get k (vals (history write ops l)) = Some (Num q) /\ (q == (a * count xs1 + qsum xs2) / (count xs1 + count xs2))%Q.
Proof. exact @mixed_value. Qed.
Print Assumptions C107_mixed.

(** C107: ProfileKV: the times of the blocks of a name since the last dump are added. *)
Theorem C107_profile : forall W (write : W -> dict val -> W * dict val * bool) ops name dts l,
  get (t "wait_" ++ name) (vals l) = None /\ get (t "wait_" ++ name) (cnts l) = None -> no_dump ops -> on (t "wait_" ++ name) ops = map (Profile name) dts -> dts <> [] ->
  exists q, get (t "wait_" ++ name) (vals (history write ops l)) = Some (Num q) /\ (q == qsum dts)%Q.
Proof. exact @profile_value. Qed.
Print Assumptions C107_profile.

(** C107: operations on other keys, and those that raise there, leave a key alone. *)
Theorem C107_others : forall W (write : W -> dict val -> W * dict val * bool) ops k l,
  no_dump ops -> on k ops = [] -> get k (vals (history write ops l)) = get k (vals l).
Proof. exact @log_absent. Qed.
Print Assumptions C107_others.

(** C107: dumpkvs: if the outputs do not raise and logging is not disabled, every dump writes what was logged since the one before, and only that. *)
Theorem C107_dumps : forall W (write : W -> dict val -> W * dict val * bool), (forall o d, snd (write o d) = false) -> forall ops z o, z <> DISABLED -> no_level ops ->
  outs (history write ops (Lg [] [] z o)) =
  fold_left (fun o it => fst (fst (write o (vals (history write it (Lg [] [] z o)))))) (iterations [] ops) o.
Proof. exact @dumps. Qed.
Print Assumptions C107_dumps.

(** C107: while logging is disabled a dump does nothing at all: what was logged stays, and is written by a later dump. *)
Theorem C107_disabled : forall W (write : W -> dict val -> W * dict val * bool) a b l,
  level l = DISABLED -> no_level a -> history write (a ++ [Dump] ++ b) l = history write (a ++ b) l.
Proof. exact @disabled. Qed.
Print Assumptions C107_disabled.

(** C107: the mean of a key whose value is None raises. *)
Theorem C107_none_raises : forall W k (l : @logger W) v, get k (vals l) = Some Nothing -> v <> Nothing -> snd (logkv_mean k v l) = true.
Proof. exact @none_raises. Qed.
Print Assumptions C107_none_raises.

(** C107: "a dump that fails writes nothing" is false: a text that is no number makes the TensorBoard output raise at every dump, the CSV output before it has written a row each time, and nothing is cleared. *)
Theorem C107_failed_dump_refuted : forall shown general order number c e kvs cs z k s,
  z <> DISABLED -> In (k, Txt s) kvs -> number s = None ->
  history (write_all shown general order number) [Dump; Dump] (Lg kvs cs z [CsvOut c; Tb e]) =
  Lg kvs cs z [CsvOut (csv_write shown order (csv_write shown order c kvs) kvs); Tb e].
Proof. exact tb_twice. Qed.
Print Assumptions C107_failed_dump_refuted.

(** C107: ScopedConfigure: after the block the logger is the one before it, whatever was configured or reset inside; *)
Theorem C107_scope : forall body w, current (exec (Scope body) w) = current w.
Proof. exact scope_current. Qed.
Print Assumptions C107_scope.
(** C107: and nested blocks leave the same loggers open as before. *)
Theorem C107_scope_files : forall c w, scopes_only c = true -> made w -> current (exec c w) = current w /\ opened (exec c w) = opened w /\ fresh w <= fresh (exec c w).
Proof. exact scope_files. Qed.
Print Assumptions C107_scope_files.
(** C107: "configure closes the logger it replaces" is false: its files stay open, also when a block ends in which configure was called. *)
Theorem C107_configure_refuted : opened (exec Configure (exec Configure (World 0 1 []))) = [2; 1] /\ opened (exec (Scope [Configure]) (World 0 1 [])) = [1].
Proof. exact (conj two_open scope_leak). Qed.
Print Assumptions C107_configure_refuted.

(** C107: reset goes back to the default logger, closes the logger it replaces and no other. *)
Theorem C107_reset : forall w, current (exec Reset w) = 0 /\ fresh (exec Reset w) = fresh w
  /\ forall n, In n (opened (exec Reset w)) <-> In n (opened w) /\ (current w = 0 \/ n <> current w).
Proof. exact reset_closes. Qed.
Print Assumptions C107_reset.

(** C108: the CSV file after any dumps, the first of which is not empty, with keys and values without commas and newlines: it is a table whose first line has all the keys once, and whose other
    lines have for each dump, in order, the values in the columns of their keys, and nothing elsewhere; it ends with a newline, with nothing of the earlier contents behind it. *)
Theorem C108_csv : forall shown order, (forall l, Permutation (order l) l) -> forall d0 kvss,
  d0 <> [] -> Forall dictionary (d0 :: kvss) -> Forall (clean_dict shown) (d0 :: kvss) ->
  let c := fold_left (csv_write shown order) (d0 :: kvss) csv0 in
  NoDup (keys c) /\ (forall k, In k (keys c) <-> exists d, In d (d0 :: kvss) /\ In k (map fst d)) /\
  table (file c) = keys c :: map (fun d => map (printed shown d) (keys c)) (d0 :: kvss) /\ exists f, file c = f ++ [newline].
Proof. exact csv_table. Qed.
Print Assumptions C108_csv.

(** C108: columns keep their places when more is dumped. *)
Theorem C108_columns : forall shown order, (forall l, Permutation (order l) l) -> forall d0 kvss more,
  d0 <> [] -> Forall dictionary (d0 :: kvss ++ more) -> Forall (clean_dict shown) (d0 :: kvss ++ more) ->
  exists e, keys (fold_left (csv_write shown order) (d0 :: kvss ++ more) csv0) = keys (fold_left (csv_write shown order) (d0 :: kvss) csv0) ++ e.
Proof. exact csv_columns. Qed.
Print Assumptions C108_columns.

(** C108: "every dump is a row of the CSV file as wide as its header" is false if the first dumps are empty: of two, one is lost and the other has two cells below one key. *)
Theorem C108_empty_refuted : table (file (fold_left (csv_write show same_order) [[]; []; d1] csv0)) = [[a]; [[]; []]; [t "1"]].
Proof. exact csv_empty_first. Qed.
Print Assumptions C108_empty_refuted.

(** C108: "values stand below their keys" is false for values with commas, such as lists: nothing is quoted. *)
Theorem C108_commas_refuted : table (file (fold_left (csv_write show same_order) [[(a, Lst [2] [1; 2]%Q); (b, Num 3)]] csv0)) = [[a; b]; [t "[1"; t " 2]"; t "3"]].
Proof. exact csv_commas. Qed.
Print Assumptions C108_commas_refuted.

(** C108: "the order of the formats does not matter" is false: a JSON output turns the arrays of the logger into lists before a CSV output after it sees them. *)
Theorem C108_formats_refuted :
  csv_of (outs (history (write_all show digit same_order (fun _ => None)) arr_ops (Lg [] [] 20 [Json []; CsvOut csv0]))) = [[[a; b]; [t "[1"; t " 2]"; t "3"]]] /\
  csv_of (outs (history (write_all show digit same_order (fun _ => None)) arr_ops (Lg [] [] 20 [CsvOut csv0; Json []]))) = [[[a; b]; [t "[1 2]"; t "3"]]].
Proof. exact (conj json_before json_after). Qed.
Print Assumptions C108_formats_refuted.

(** C108: the human readable table: between two lines of dashes a line for each key, cut to 23 characters if it is longer, in increasing order; all lines have the same length. *)
Theorem C108_human : forall shown general kvs, dictionary kvs -> kvs <> [] ->
  exists rows kw vw, human_lines shown general kvs = [repeat "-"%char (kw + vw + 7)] ++ map (human_line kw vw) rows ++ [repeat "-"%char (kw + vw + 7)] /\
    increasing rows /\ (forall k' v', In (k', v') rows <-> human_row shown general kvs k' v') /\
    (forall l, In l (human_lines shown general kvs) -> length l = kw + vw + 7).
Proof. exact human_table. Qed.
Print Assumptions C108_human.

(** C108: "every key has a line" is false: of long keys with the same first 20 characters only the greatest is shown. *)
Theorem C108_human_refuted : human_lines show digit [(long1, Num 1); (long2, Num 2)] =
  [t "-------------------------------"; t "| rollout/mean_episode... | 1 |"; t "-------------------------------"].
Proof. exact human_lost. Qed.
Print Assumptions C108_human_refuted.

(** C108: a key or value of at most 23 characters is shown whole, a longer one as its first 20 characters and three dots. *)
Theorem C108_cut : forall s, (length s <= 23 -> truncate s = s) /\ (23 < length s -> truncate s = firstn 20 s ++ t "...") /\ length (truncate s) <= 23.
Proof. exact truncate_cut. Qed.
Print Assumptions C108_cut.

(** C108: a dump adds one dictionary with the same keys to a JSON file, in which arrays are numbers or lists. *)
Theorem C108_json : forall shown general order number dicts kvs, dictionary kvs -> (forall k v, In (k, v) kvs -> json_plain v) ->
  exists d, write_one shown general order number (Json dicts) kvs = (Json (dicts ++ [d]), d, false) /\ map fst d = map fst kvs
    /\ forall k v, get k kvs = Some v -> exists w, get k d = Some w /\ json_value v w.
Proof. exact json_row. Qed.
Print Assumptions C108_json.

(** C108: the events of TensorBoard are those of the dumps, with steps 1, 2, 3 and so on. *)
Theorem C108_events : forall shown general order number dumps rows, map (tb_values number) dumps = map Some rows ->
  dumped shown general order number (Tb []) dumps = Tb (combine (seq 1 (length dumps)) rows).
Proof. exact tb_steps. Qed.
Print Assumptions C108_events.
