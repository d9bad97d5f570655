(** C101 and C102: input files. *)
From Coq Require Import Ascii String List Arith ZArith Bool.
From Verif Require Import IP_Model IP_Spec IP_Proofs IP_Check IP_Demo.
Import ListNotations.
Open Scope list_scope.

(** C101: if an input file is read and has a card between its READ and END lines, whose lines are blank, comments or
    name = value with any white space, the block of the card gives each name its last value and no other name a value. *)
Theorem C101_block : forall isspace isalpha (D : Type) (to_dict : text -> option D) card d lines l, sane isspace isalpha -> ~ In "="%char card ->
  file_with isspace isalpha true card d lines -> input_file isspace isalpha lines = Ok l ->
  exists p, parse_card isspace to_dict card l = Some p /\ forall k, dget k p = option_map Raw (last_value k d).
Proof. intros. now apply (card_values isspace isalpha H to_dict true card d lines l). Qed.
Print Assumptions C101_block.

(** C101: the same of files where lines have a second = and more after it: the value ends at the second =. *)
Theorem C101_block_cut : forall isspace isalpha (D : Type) (to_dict : text -> option D) card d lines l, sane isspace isalpha -> ~ In "="%char card ->
  file_with isspace isalpha false card d lines -> input_file isspace isalpha lines = Ok l ->
  exists p, parse_card isspace to_dict card l = Some p /\ forall k, dget k p = option_map Raw (last_value k d).
Proof. intros. now apply (card_values isspace isalpha H to_dict false card d lines l). Qed.
Print Assumptions C101_block_cut.

(** C101: a value with = in it is not kept: what follows its = is lost without a message, whatever it is. *)
Theorem C101_equals_refuted : forall isspace isalpha (D : Type) (to_dict : text -> option D) s k v lost, sane isspace isalpha -> assigns isspace isalpha s k v ("="%char :: lost) ->
  parse_line isspace to_dict (strip isspace s) = Some (k, Raw v).
Proof. intros isspace isalpha D to_dict s k v lost S A. destruct (line_value isspace isalpha S to_dict s k v _ A) as (c & u & _ & _ & _ & _ & P). exact P. Qed.
Print Assumptions C101_equals_refuted.

(** C101: blank lines and comments change nothing. *)
Theorem C101_comments : forall isspace isalpha l1 s l2, sane isspace isalpha -> Forall no_data l1 -> inert isspace s -> input_file isspace isalpha (l1 ++ s :: l2) = input_file isspace isalpha (l1 ++ l2).
Proof. intros. now apply inert_removed. Qed.
Print Assumptions C101_comments.

(** C101: a line that begins with anything but a letter, # or a brace is refused. *)
Theorem C101_first_character : forall isspace isalpha l1 s l2 c u, Forall no_data l1 -> no_data s -> strip isspace s = c :: u -> isalpha c = false -> c <> "#"%char -> c <> "{"%char ->
  forall l, input_file isspace isalpha (l1 ++ s :: l2) <> Ok l.
Proof. exact bad_first. Qed.
Print Assumptions C101_first_character.

(** C101: a line of a card without = raises. *)
Theorem C101_no_equals_raises : forall isspace (D : Type) (to_dict : text -> option D) card l b s, between card l b -> In s b -> ~ In "="%char s -> parse_card isspace to_dict card l = None.
Proof. intros isspace D to_dict. exact (no_equals isspace to_dict). Qed.
Print Assumptions C101_no_equals_raises.

(** C101: the algorithms of a file are those with both a READ and an END line. *)
Theorem C101_algorithms : forall isspace (D : Type) (to_dict : text -> option D) l g u algs, blocks isspace to_dict l = Some (g, u, algs) ->
  forall c, In c (map fst algs) <-> In c algorithms /\ In (t "READ " ++ c) l /\ In (t "END " ++ c) l.
Proof. intros isspace D to_dict. exact (algorithms_iff isspace to_dict). Qed.
Print Assumptions C101_algorithms.

(** C101: a card that is opened and never closed is skipped without a message. *)
Theorem C101_unclosed_refuted : forall isspace (D : Type) (to_dict : text -> option D) l g u algs c, blocks isspace to_dict l = Some (g, u, algs) ->
  In (t "READ " ++ c) l -> ~ In (t "END " ++ c) l -> ~ In c (map fst algs).
Proof. intros isspace D to_dict l g u algs c H _ N I. apply (algorithms_iff isspace to_dict l g u algs H) in I. tauto. Qed.
Print Assumptions C101_unclosed_refuted.

(** C101: a card whose END line comes first is read as empty. *)
Theorem C101_end_first_refuted : forall isspace (D : Type) (to_dict : text -> option D) card pre mid post, ~ In (t "READ " ++ card) (pre ++ mid) -> ~ In (t "END " ++ card) pre ->
  parse_card isspace to_dict card (pre ++ (t "END " ++ card) :: mid ++ (t "READ " ++ card) :: post) = Some [].
Proof. intros isspace D to_dict. exact (end_first isspace to_dict). Qed.
Print Assumptions C101_end_first_refuted.

(** C101: a file with a TUNE card is accepted only with a method and exactly one algorithm. *)
Theorem C101_tune : forall isspace (D : Type) (to_dict : text -> option D) l g u algs, blocks isspace to_dict l = Some (g, u, algs) ->
  (In (t "READ TUNE") l /\ In (t "END TUNE") l <-> u <> None) /\ (forall d, u = Some d -> In (t "method") (map fst d) /\ List.length algs = 1%nat).
Proof. intros isspace D to_dict l g u algs H. split; [exact (tune_read isspace to_dict l g u algs H)|]. intros d ->. exact (tune_one isspace to_dict l g d algs H). Qed.
Print Assumptions C101_tune.

(** C101: the lines of a dictionary, from the one with env_data to the first after which its braces are even, become one
    item; what follows is read as if it stood alone. *)
Theorem C101_dictionary : forall isspace l1 s ls rest, Forall no_data l1 -> ~ no_data s ->
  (forall n, (0 < n < S (List.length ls))%nat -> ~ even_braces (concat (map (fun x => strip isspace (cut x)) (firstn n (s :: ls))))) ->
  even_braces (concat (map (fun x => strip isspace (cut x)) (s :: ls))) ->
  read isspace None (l1 ++ s :: ls ++ rest) = option_map (fun r => map (strip isspace) l1 ++ concat (map (fun x => strip isspace (cut x)) (s :: ls)) :: r) (read isspace None rest).
Proof. exact data_item. Qed.
Print Assumptions C101_dictionary.

(** C101: of such a line only what stands before its last # is used. *)
Theorem C101_dictionary_comment : forall s u, ~ In "#"%char u -> cut (s ++ "#"%char :: u) = s.
Proof. exact cut_comment. Qed.
Print Assumptions C101_dictionary_comment.

(** C101: without a # its last character is dropped, whatever it is: a file that ends with the closing brace of the
    dictionary and no new line loses the brace. *)
Theorem C101_dictionary_last_refuted : forall s c, ~ In "#"%char (s ++ [c]) -> cut (s ++ [c]) = s.
Proof. exact cut_line. Qed.
Print Assumptions C101_dictionary_last_refuted.

(** C101: a dictionary whose braces are not even at any later line keeps the reader in its loop for ever. *)
Theorem C101_dictionary_hangs : forall isspace isalpha l1 s ls, Forall no_data l1 -> ~ no_data s ->
  (forall n, (0 < n <= S (List.length ls))%nat -> ~ even_braces (concat (map (fun x => strip isspace (cut x)) (firstn n (s :: ls))))) ->
  input_file isspace isalpha (l1 ++ s :: ls) = Hang.
Proof. exact data_hangs. Qed.
Print Assumptions C101_dictionary_hangs.

(** C101: the directory of the results is named after the path of the file up to its first dot. *)
Theorem C101_log_dir : forall a b, ~ In "."%char a -> log_dir (a ++ "."%char :: b) = a ++ t "_log/".
Proof. intros a b H. unfold log_dir. now rewrite until_dot_app. Qed.
Print Assumptions C101_log_dir.

(** C101: so all paths that begin with a dot share one directory. *)
Theorem C101_log_dir_refuted : forall a b, log_dir ("."%char :: a) = log_dir ("."%char :: b).
Proof. reflexivity. Qed.
Print Assumptions C101_log_dir_refuted.

(** C102: a block of DQN, PPO, A2C or ACER is accepted, and read as p, if and only if all its names are known and its
    values are read as p, the required names are there, and the rules about modes hold. *)
Theorem C102_learners : forall isspace (D F : Type) (to_float : text -> option F) trunc (dict_text : D -> text) card d p, In card rl_cards -> NoDup (map fst d) ->
  (check_input isspace to_float trunc dict_text card d = Some p <->
   block_reads isspace to_float trunc dict_text card d p /\ complete card (map fst d) /\ exists m, In (t "mode", VStr m) p /\ mode_rules m (map fst d)).
Proof. intros isspace D F to_float trunc dict_text. exact (rl_accepts isspace to_float trunc dict_text). Qed.
Print Assumptions C102_learners.

(** C102: a block of GA or SA is accepted if and only if its names are known, its values are read and none is missing. *)
Theorem C102_searches : forall isspace (D F : Type) (to_float : text -> option F) trunc (dict_text : D -> text) card d p, ~ In card rl_cards -> card <> t "GENERAL" ->
  (check_input isspace to_float trunc dict_text card d = Some p <-> block_reads isspace to_float trunc dict_text card d p /\ complete card (map fst d)).
Proof. intros isspace D F to_float trunc dict_text. exact (other_accepts isspace to_float trunc dict_text). Qed.
Print Assumptions C102_searches.

(** C102: the same of GENERAL, where xsize_plot is xsize if it is not given. *)
Theorem C102_general : forall isspace (D F : Type) (to_float : text -> option F) trunc (dict_text : D -> text) d p, check_input isspace to_float trunc dict_text (t "GENERAL") d = Some p <->
  exists q x, block_reads isspace to_float trunc dict_text (t "GENERAL") d q /\ complete (t "GENERAL") (map fst d) /\ dget (t "xsize") q = Some x /\
    p = if has (t "xsize_plot") q then q else q ++ [(t "xsize_plot", x)].
Proof. intros isspace D F to_float trunc dict_text. exact (general_accepts isspace to_float trunc dict_text). Qed.
Print Assumptions C102_general.

(** C102: any mode at all is accepted alone: test and continue without a model to load, train without a number of steps,
    and words that are no mode. *)
Theorem C102_mode_refuted : forall isspace (D F : Type) (to_float : text -> option F) trunc (dict_text : D -> text) card m, In card rl_cards -> trimmed isspace m -> m <> [] ->
  check_input isspace to_float trunc dict_text card [(t "mode", Raw m)] = Some [(t "mode", VStr m)].
Proof. intros isspace D F to_float trunc dict_text. exact (any_mode isspace to_float trunc dict_text). Qed.
Print Assumptions C102_mode_refuted.

(** C102: the checked file is the accepted blocks, with all the cores asked for within the limit the user has set; a limit
    that is not positive means all processors. *)
Theorem C102_cores : forall isspace (D F : Type) (to_float : text -> option F) trunc (dict_text : D -> text) cpu_count default g algs g' a,
  setup isspace to_float trunc dict_text cpu_count default g algs = Some (g', a) <->
  check_input isspace to_float trunc dict_text (t "GENERAL") g = Some g' /\
  Forall2 (fun x y => fst y = fst x /\ check_input isspace to_float trunc dict_text (fst x) (snd x) = Some (snd y)) algs a /\
  exists ns, Forall2 (fun y n => final default (fst y) (snd y) (t "ncores") = Some (VInt n)) a ns /\
    forall m, dget (t "maxcores") g' = Some (VInt m) -> (fold_right Z.add 0 ns <= if m <=? 0 then cpu_count else m)%Z.
Proof. intros isspace D F to_float trunc dict_text cpu_count default. exact (setup_iff isspace to_float trunc dict_text cpu_count default). Qed.
Print Assumptions C102_cores.

(** C102: a parameter has the value the user gives, and its default if none is given. *)
Theorem C102_values : forall (D F : Type) (default : text -> text -> option (@val D F)) card p n x,
  (dget n p = Some x -> final default card p n = Some x) /\ (dget n p = None -> n <> t "flag" -> final default card p n = default card n).
Proof. intros D F default card p n x. unfold final. split; [now intros ->|]. intros -> N. now rewrite (teqb_neq _ _ N). Qed.
Print Assumptions C102_values.

(** C102: an algorithm is switched on by its card unless the card says flag = False; then its cores still count. *)
Theorem C102_flag_refuted : forall (D F : Type) (default : text -> text -> option (@val D F)) card p, card <> t "GENERAL" ->
  (dget (t "flag") p = None -> final default card p (t "flag") = Some (VBool true)) /\ (dget (t "flag") p = Some (VBool false) -> final default card p (t "flag") = Some (VBool false)).
Proof. intros D F default card p N. unfold final. split; intros ->; [|reflexivity]. now rewrite teqb_refl, (teqb_neq _ _ N). Qed.
Print Assumptions C102_flag_refuted.

(** C102: with several cores check_freq is raised to the next multiple of their number. *)
Theorem C102_check_freq : forall f n, (1 <= n)%Z -> (f <= adjusted f n)%Z /\ (exists q, adjusted f n = q * n)%Z /\ forall q, (f <= q * n -> adjusted f n <= q * n)%Z.
Proof. exact adjusted_least. Qed.
Print Assumptions C102_check_freq.
