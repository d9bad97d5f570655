(** What is claimed of texts for consoles. *)
From Coq Require Import QArith Qabs Ascii String List Arith Bool Lia.
From Verif Require Import CT_Model.
Import ListNotations.
Open Scope list_scope.
Open Scope nat_scope.

(** What of a text is at the places from [i] on, [n] characters. *)
Definition part (i n : nat) (s : text) : text := firstn n (skipn i s).
(** The item inside. *)
Definition inner (x : item) : item := match x with Array _ y => y | _ => x end.
(** Arrays with dimensions. *)
Definition dimensions (x : item) : nat := match x with Array n _ => n | _ => 0 end.
(** The escape sequence of a colour, bold or not. *)
Definition prefix_of (num : nat) (bold : bool) : text := [escape] ++ of_string "[" ++ str2 num ++ (if bold then of_string ";1" else []) ++ of_string "m".
(** The colours by name, with the codes of their letters and, highlighted, of the ground. *)
Definition ansi : list (string * (string * string)) :=
  [("gray", ("30", "40")); ("red", ("31", "41")); ("green", ("32", "42")); ("yellow", ("33", "43")); ("blue", ("34", "44")); ("magenta", ("35", "45"));
   ("cyan", ("36", "46")); ("white", ("37", "47")); ("crimson", ("38", "48"))]%string.
