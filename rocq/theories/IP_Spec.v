(** What an input file means, without reference to the reader. *)
From Coq Require Import Ascii String List Arith ZArith Bool.
From Verif Require Import IP_Model.
Import ListNotations.
Open Scope list_scope.

Section Lines.
  Variable isspace isalpha : ascii -> bool.
  (** # and = are no white space, # is no letter. *)
  Definition sane : Prop := isspace "#" = false /\ isspace "=" = false /\ isalpha "#" = false.
  Definition blank (w : text) : Prop := Forall (fun c => isspace c = true) w.
  (** No white space at either end. *)
  Definition trimmed (s : text) : Prop := (forall c u, s = c :: u -> isspace c = false) /\ (forall c u, s = u ++ [c] -> isspace c = false).
  (** The text occurs in the line. *)
  Definition occurs (a s : text) : Prop := exists u w, s = u ++ a ++ w.
  Definition no_data (s : text) : Prop := ~ occurs (t "env_data") s.
  (** An empty line or a comment. *)
  Definition inert (s : text) : Prop := no_data s /\ (blank s \/ exists w u, blank w /\ s = w ++ "#"%char :: u).
  (** A line  name = value  with white space anywhere around them, and what follows a second = if there is one. *)
  Definition assigns (s k v more : text) : Prop :=
    no_data s /\ trimmed k /\ trimmed v /\ ~ In "="%char k /\ ~ In "="%char v /\ (exists c u, k = c :: u /\ isalpha c = true) /\
    exists w1 w2 w3 w4, blank w1 /\ blank w2 /\ blank w3 /\ blank w4 /\ s = w1 ++ k ++ w2 ++ "="%char :: w3 ++ v ++ w4 ++ more /\ (more = [] \/ exists u, more = "="%char :: u).
  (** The assignments of some lines; [whole]: no line has a second =. *)
  Inductive body (whole : bool) : list text -> list (text * text) -> Prop :=
  | body_nil : body whole [] []
  | body_inert s l d : inert s -> body whole l d -> body whole (s :: l) d
  | body_set s k v more l d : assigns s k v more -> (whole = true -> more = []) -> body whole l d -> body whole (s :: l) ((k, v) :: d).
  (** The line that opens or closes a card. *)
  Definition heading (h s : text) : Prop := no_data s /\ trimmed h /\ exists w w', blank w /\ blank w' /\ s = w ++ h ++ w'.
  (** Some lines of a file before and after a card. *)
  Definition other (card s : text) : Prop := no_data s /\ ~ heading (read_of card) s /\ ~ heading (end_of card) s.
  (** A file with a card. *)
  Definition file_with (whole : bool) (card : text) (d : list (text * text)) (lines : list text) : Prop :=
    exists pre rd bd en post, lines = pre ++ rd :: bd ++ en :: post /\ Forall (other card) pre /\ Forall no_data post /\
      heading (read_of card) rd /\ heading (end_of card) en /\ body whole bd d.
End Lines.
(** The last value given to a name. *)
Definition last_value (k : text) (d : list (text * text)) : option text := dget k (rev d).
(** The lines between the heads of a card, once comments are gone. *)
Definition between (card : text) (l b : list text) : Prop :=
  exists pre post, l = pre ++ read_of card :: b ++ end_of card :: post /\ ~ In (read_of card) pre /\ ~ In (end_of card) (pre ++ b).
(** As many opening as closing braces. *)
Definition even_braces (s : text) : Prop := count_occ ascii_dec s "{"%char = count_occ ascii_dec s "}"%char.

Section Values.
  Variable isspace : ascii -> bool.
  Context {D F : Type}.
  Variable to_float : text -> option F.
  Variable trunc : F -> option Z.
  Variable dict_text : D -> text.
  (** A value given for a parameter of some kind and what it is read as. *)
  Inductive reads_as : kind -> @value D -> @val D F -> Prop :=
  | as_str s : reads_as KStr (Raw s) (VStr (strip isspace s))
  | as_strd d : reads_as KStr (Data d) (VStr (strip isspace (dict_text d)))
  | as_int s f z : to_float s = Some f -> trunc f = Some z -> reads_as KInt (Raw s) (VInt z)
  | as_float s f : to_float s = Some f -> reads_as KFloat (Raw s) (VFloat f)
  | as_true : reads_as KBool (Raw (t "True")) (VBool true)
  | as_false : reads_as KBool (Raw (t "False")) (VBool false)
  | as_strs s : reads_as KStrs (Raw s) (VStrs (map (strip isspace) (split "," s)))
  | as_vec s l : Forall2 (fun x f => to_float (strip isspace x) = Some f) (split "," s) l -> reads_as KVec (Raw s) (VVec l)
  | as_same s : reads_as KDict (Raw s) (VStr s)
  | as_dict d : reads_as KDict (Data d) (VData d).
  (** A block and what it is read as. *)
  Definition block_reads (card : text) (d : list (text * @value D)) (p : list (text * @val D F)) : Prop :=
    Forall2 (fun x y => fst y = fst x /\ exists n k, In (fst x, (n, k)) (table card) /\ reads_as k (snd x) (snd y)) d p.
  (** All required parameters are given. *)
  Definition complete (card : text) (names : list text) : Prop := forall n k, In (n, (Req, k)) (table card) -> In n names.
  (** The rules about modes: nothing only for tests or loading in training, and nothing else in tests. *)
  Definition mode_rules (m : text) (names : list text) : Prop :=
    (m <> [] \/ In (t "model_load_path") names /\ In (t "time_steps") names) /\
    (m = t "train" -> forall n, In n (map t ["model_load_path"; "n_eval_episodes"; "render"]%string) -> ~ In n names) /\
    (m = t "continue" -> forall n, In n (map t ["n_eval_episodes"; "render"]%string) -> ~ In n names) /\
    (m = t "test" -> forall n, In n names -> In n (map t ["casename"; "mode"; "model_load_path"; "n_eval_episodes"; "render"]%string)).
End Values.
Definition rl_cards : list text := map t ["DQN"; "PPO"; "A2C"; "ACER"]%string.
