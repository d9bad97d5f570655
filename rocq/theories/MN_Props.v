(** C118: the command line. *)
From Coq Require Import Ascii String List Arith ZArith Bool.
Import ListNotations.
Require Import Verif.IP_Model Verif.IP_Spec Verif.MN_Model Verif.MN_Spec Verif.MN_Proofs Verif.MN_Demo.
Open Scope list_scope. Open Scope nat_scope.

(** C118: for an input file without a TUNE card whose cards are accepted, once the log files are there and the mode is
    run, exactly the cards of the file that are not switched off are started, each once and in the order DQN, PPO, A2C,
    ACER, GA, SA; otherwise nothing is. *)
Theorem C118_started : forall isspace (D F : Type) (to_float : text -> option F) trunc (dict_text : D -> text) cpus default exists_path succeeds g algs g' a o path c files,
  o_example o = false -> o_test o = false -> o_input o = Some (c :: path) -> files (c :: path) = Some (g, None, algs) -> setup isspace to_float trunc dict_text cpus default g algs = Some (g', a) ->
  started (fst (main isspace to_float trunc dict_text cpus default exists_path succeeds o files)) =
  if succeeds (LogFiles (map fst algs)) && teqb (neorl_mode default g') (t "run") then filter (switched_on algs) algorithms else [].
Proof. intros isspace D F to_float trunc dict_text cpus default exists_path succeeds g algs g' a o path c files. exact (starts isspace to_float trunc dict_text cpus default exists_path succeeds g algs g' a o path c files). Qed.
Print Assumptions C118_started.

(** C118: a card that is switched off has its log files made (and an earlier log moved) all the same. *)
Theorem C118_off_refuted : forall isspace (D F : Type) (to_float : text -> option F) trunc (dict_text : D -> text) cpus default exists_path succeeds g algs g' a o path c files card d,
  o_example o = false -> o_test o = false -> o_input o = Some (c :: path) -> files (c :: path) = Some (g, None, algs) -> setup isspace to_float trunc dict_text cpus default g algs = Some (g', a) ->
  dget card algs = Some d -> dget (t "flag") d = Some (Raw (t "False")) ->
  ~ In card (started (fst (main isspace to_float trunc dict_text cpus default exists_path succeeds o files))) /\
  exists cards rest, fst (main isspace to_float trunc dict_text cpus default exists_path succeeds o files) = ReadFile (c :: path) :: LogFiles cards :: rest /\ In card cards.
Proof. intros isspace D F to_float trunc dict_text cpus default exists_path succeeds g algs g' a o path c files card d. exact (off_but_logged isspace to_float trunc dict_text cpus default exists_path succeeds g algs g' a o path c files card d). Qed.
Print Assumptions C118_off_refuted.

(** C118: a file whose cards are not accepted raises before anything is written. *)
Theorem C118_refused : forall isspace (D F : Type) (to_float : text -> option F) trunc (dict_text : D -> text) cpus default succeeds g algs, setup isspace to_float trunc dict_text cpus default g algs = None ->
  plain_main isspace to_float trunc dict_text cpus default succeeds g algs = ([], Raises).
Proof. intros isspace D F to_float trunc dict_text cpus default succeeds g algs. exact (plain_refused isspace to_float trunc dict_text cpus default succeeds g algs). Qed.
Print Assumptions C118_refused.

(** C118: but a mode that does not exist raises only after the log files of the run before have been moved, ... *)
Theorem C118_mode_refuted : forall isspace (D F : Type) (to_float : text -> option F) trunc (dict_text : D -> text) cpus default succeeds g algs g' a,
  setup isspace to_float trunc dict_text cpus default g algs = Some (g', a) -> succeeds (LogFiles (map fst algs)) = true -> ~ In (neorl_mode default g') (map t ["run"; "test"; "env_only"]%string) ->
  plain_main isspace to_float trunc dict_text cpus default succeeds g algs = ([LogFiles (map fst algs)], Raises).
Proof. intros isspace D F to_float trunc dict_text cpus default succeeds g algs g' a. exact (plain_mode isspace to_float trunc dict_text cpus default succeeds g algs g' a). Qed.
Print Assumptions C118_mode_refuted.

(** C118: and the mode test, which only checks the input, moves them too. *)
Theorem C118_test_refuted : forall isspace (D F : Type) (to_float : text -> option F) trunc (dict_text : D -> text) cpus default succeeds g algs g' a,
  setup isspace to_float trunc dict_text cpus default g algs = Some (g', a) -> succeeds (LogFiles (map fst algs)) = true -> neorl_mode default g' = t "test" ->
  plain_main isspace to_float trunc dict_text cpus default succeeds g algs = ([LogFiles (map fst algs)], Ends).
Proof. intros isspace D F to_float trunc dict_text cpus default succeeds g algs g' a. exact (plain_test isspace to_float trunc dict_text cpus default succeeds g algs g' a). Qed.
Print Assumptions C118_test_refuted.

(** C118: without an input file nothing is read or written, whatever the other options. *)
Theorem C118_no_input : forall isspace (D F : Type) (to_float : text -> option F) trunc (dict_text : D -> text) cpus default exists_path succeeds o files, o_input o = None ->
  forall x, In x (fst (main isspace to_float trunc dict_text cpus default exists_path succeeds o files)) -> ~ touches x.
Proof. intros isspace D F to_float trunc dict_text cpus default exists_path succeeds. exact (no_input isspace to_float trunc dict_text cpus default exists_path succeeds). Qed.
Print Assumptions C118_no_input.

(** C118: the option that checks an input file does nothing: any file may be given to it, or none. *)
Theorem C118_check_refuted : forall isspace (D F : Type) (to_float : text -> option F) trunc (dict_text : D -> text) cpus default exists_path succeeds i c c' ts e files,
  main isspace to_float trunc dict_text cpus default exists_path succeeds (Options i c ts e) files = main isspace to_float trunc dict_text cpus default exists_path succeeds (Options i c' ts e) files.
Proof. intros isspace D F to_float trunc dict_text cpus default exists_path succeeds. exact (check_option isspace to_float trunc dict_text cpus default exists_path succeeds). Qed.
Print Assumptions C118_check_refuted.

(** C118: a TUNE card is accepted, and read as p, exactly if its names are names of the card or have a brace, its values
    can be read, a method is given and the external files exist. *)
Theorem C118_tune_card : forall isspace (D F : Type) (to_float : text -> option F) trunc (dict_text : D -> text) exists_path d p, tune_check isspace to_float trunc dict_text exists_path d = Some p <->
  tune_block isspace to_float trunc dict_text d p /\ In (t "method") (map fst d) /\ forall l, dget (t "extfiles") p = Some (Val (VStrs l)) -> forall f, In f l -> exists_path f = true.
Proof. intros isspace D F to_float trunc dict_text exists_path. exact (tune_accepts isspace to_float trunc dict_text exists_path). Qed.
Print Assumptions C118_tune_card.

(** C118: then every name has the value given to it, or its default; names with a brace have their text. *)
Theorem C118_tune_values : forall isspace (D F : Type) (to_float : text -> option F) trunc (dict_text : D -> text) default exists_path d p n,
  tune_check isspace to_float trunc dict_text exists_path d = Some p -> n <> t "flag" ->
  match dget n d with
  | Some v => exists x, tune_final default p n = Some x /\ tune_reads isspace to_float trunc dict_text n v x
  | None => tune_final default p n = option_map Val (default (t "TUNE") n)
  end.
Proof. intros isspace D F to_float trunc dict_text default exists_path. exact (tune_values isspace to_float trunc dict_text default exists_path). Qed.
Print Assumptions C118_tune_values.

(** C118: a TUNE card cannot be switched off: its flag is true whatever is given. *)
Theorem C118_tune_flag_refuted : forall (D F : Type) default (p : list (text * @item D F)), tune_final default p (t "flag") = Some (Val (VBool true)).
Proof. intros D F. exact tune_flag. Qed.
Print Assumptions C118_tune_flag_refuted.

(** C118: with a TUNE card the cases are generated by the method named and then run, or only generated in the mode test;
    a method that does not exist raises before, but a mode that does not exist only after the cases are generated. *)
Theorem C118_tune : forall isspace (D F : Type) (to_float : text -> option F) trunc (dict_text : D -> text) default exists_path succeeds u p,
  tune_check isspace to_float trunc dict_text exists_path u = Some p -> succeeds RunCases = true ->
  let m := text_of (tune_final default p (t "method")) in let md := text_of (tune_final default p (t "mode")) in let result := tune_main isspace to_float trunc dict_text default exists_path succeeds u in
  (In m methods -> succeeds (Generate m) = true -> tune_final default p (t "mode") <> None ->
     (md = t "run" -> result = ([Generate m; RunCases], Ends)) /\ (md = t "test" -> result = ([Generate m], Ends)) /\
     (md <> t "run" -> md <> t "test" -> result = ([Generate m], Raises))) /\
  (~ In m methods -> result = ([], Raises)).
Proof. intros isspace D F to_float trunc dict_text default exists_path succeeds. exact (tune_outcome isspace to_float trunc dict_text default exists_path succeeds). Qed.
Print Assumptions C118_tune.

(** C118: the other cards are not checked then: what is done depends on the TUNE card alone. *)
Theorem C118_tune_alone_refuted : forall isspace (D F : Type) (to_float : text -> option F) trunc (dict_text : D -> text) cpus default exists_path succeeds o path c files files' g u algs g2 algs2,
  o_input o = Some (c :: path) -> files (c :: path) = Some (g, Some u, algs) -> files' (c :: path) = Some (g2, Some u, algs2) ->
  main isspace to_float trunc dict_text cpus default exists_path succeeds o files = main isspace to_float trunc dict_text cpus default exists_path succeeds o files'.
Proof. intros isspace D F to_float trunc dict_text cpus default exists_path succeeds o path c files files' g u algs g2 algs2. exact (tune_alone isspace to_float trunc dict_text cpus default exists_path succeeds o path c files files' g u algs g2 algs2). Qed.
Print Assumptions C118_tune_alone_refuted.
