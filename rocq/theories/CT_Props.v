(** Properties of texts for consoles. *)
From Coq Require Import QArith Qabs Ascii String List Arith Bool Lia.
From Verif Require Import CT_Model CT_Spec CT_Proofs CT_Final.
Import ListNotations.
Open Scope list_scope.
Open Scope nat_scope.

(** C135: an item is its text with blanks in front up to the width, never cut; arrays with dimensions raise. *)
Theorem C135_item : forall fixed sci x w, (dimensions x = 0 -> exists k, fmt_item fixed sci x w = Returns (repeat blank k ++ rep fixed sci (inner x)) /\ k + length (rep fixed sci (inner x)) = Nat.max w (length (rep fixed sci (inner x)))) /\
  (dimensions x <> 0 -> fmt_item fixed sci x w = Raises).
Proof. exact item_text. Qed.
Print Assumptions C135_item.
(** C135: floats are written with five decimals if they are zero or their size is between 0.0001 and 10000, and in scientific notation
    otherwise. *)
Theorem C135_float : forall fixed sci q, ((1 # 10000 <= Qabs q /\ Qabs q <= 10000 # 1)%Q \/ (q == 0)%Q -> rep fixed sci (Float q) = fixed q) /\
  (((Qabs q < 1 # 10000)%Q \/ (10000 # 1 < Qabs q)%Q) -> ~ (q == 0)%Q -> rep fixed sci (Float q) = sci q).
Proof. exact float_format. Qed.
Print Assumptions C135_float.
(** C135: if all items fit, item i takes the places from i times (width + 3) on, so rows of the same number of items align. *)
Theorem C135_columns : forall fixed sci w row, row <> [] -> Forall (fun x => dimensions x = 0 /\ length (rep fixed sci (inner x)) <= w) row -> exists out, fmt_row fixed sci w row false = Returns out /\
  length out + 3 = length row * (w + 3) /\ forall i x, nth_error row i = Some x -> fmt_item fixed sci x w = Returns (part (i * (w + 3)) w out).
Proof. exact row_columns. Qed.
Print Assumptions C135_columns.
(** C135: no row is shorter than that. *)
Theorem C135_least : forall fixed sci w row, row <> [] -> Forall (fun x => dimensions x = 0) row -> exists out, fmt_row fixed sci w row false = Returns out /\ length row * (w + 3) <= length out + 3.
Proof. exact row_least. Qed.
Print Assumptions C135_least.
(** C135: a header has a line of as many dashes below it; a row raises exactly if it has an array with dimensions. *)
Theorem C135_header : forall fixed sci w row, (forall out, fmt_row fixed sci w row false = Returns out -> fmt_row fixed sci w row true = Returns (out ++ newline :: repeat dash (length out))) /\
  (forall h, fmt_row fixed sci w row h = Raises <-> Exists (fun x => dimensions x <> 0) row).
Proof. exact row_header. Qed.
Print Assumptions C135_header.
(** C135, finding: behind an item that does not fit the columns shift. *)
Theorem C135_align_refuted : forall fixed sci, exists w r1 r2 o1 o2, length r1 = length r2 /\ fmt_row fixed sci w r1 false = Returns o1 /\ fmt_row fixed sci w r2 false = Returns o2 /\ length o1 <> length o2 /\
  nth_error r1 1 = nth_error r2 1 /\ part (w + 3) w o1 <> part (w + 3) w o2.
Proof. exact row_shift. Qed.
Print Assumptions C135_align_refuted.
(** C135: a coloured text is the text between the escape sequences of the colour (10 more for highlighting) and of the reset; unknown
    colours raise. *)
Theorem C135_color : forall s c b h, (forall num, lookup c colors = Some num ->
    colorize s c b h = Returns (prefix_of (if h then num + 10 else num) b ++ s ++ [escape] ++ of_string "[0m")) /\ (lookup c colors = None <-> colorize s c b h = Raises).
Proof. exact color_text. Qed.
Print Assumptions C135_color.
(** C135: different colours, settings or texts look different. *)
Theorem C135_distinct : forall s s' c b h c' b' h' o, colorize s c b h = Returns o -> colorize s' c' b' h' = Returns o -> c = c' /\ b = b' /\ h = h' /\ s = s'.
Proof. exact color_distinct. Qed.
Print Assumptions C135_distinct.
(** C135: between the columns stand a blank, a bar and a blank. *)
Theorem C135_separators : forall fixed sci w row out i, Forall (fun x => dimensions x = 0 /\ length (rep fixed sci (inner x)) <= w) row ->
  fmt_row fixed sci w row false = Returns out -> S i < length row -> part (i * (w + 3) + w) 3 out = of_string " | ".
Proof. exact row_separators. Qed.
Print Assumptions C135_separators.
(** C135: what is no float is written as it is, behind as many blanks as are missing. *)
Theorem C135_other : forall fixed sci s n, fmt_item fixed sci (Other s) n = Returns (repeat blank (n - length s) ++ s).
Proof. exact other_text. Qed.
Print Assumptions C135_other.
(** C135: each colour has the code of the terminal for its name, of the letters or highlighted, and bold adds 1. *)
Theorem C135_codes : forall s name front ground, In (name, (front, ground)) ansi ->
  colorize s name false false = Returns (escape :: of_string ("[" ++ front ++ "m") ++ s ++ escape :: of_string "[0m")
  /\ colorize s name false true = Returns (escape :: of_string ("[" ++ ground ++ "m") ++ s ++ escape :: of_string "[0m")
  /\ colorize s name true false = Returns (escape :: of_string ("[" ++ front ++ ";1m") ++ s ++ escape :: of_string "[0m")
  /\ colorize s name true true = Returns (escape :: of_string ("[" ++ ground ++ ";1m") ++ s ++ escape :: of_string "[0m").
Proof. exact color_codes. Qed.
Print Assumptions C135_codes.
