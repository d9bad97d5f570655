(** Text for consoles: fmt_row, fmt_item and colorize (neorl/rl/baselines/shared/console_util.py:11-78).  Strings are lists of characters. *)
From Coq Require Import QArith Qabs Ascii String List Arith Bool Lia.
Import ListNotations.
Open Scope list_scope.
Open Scope nat_scope.

Notation text := (list ascii).
Definition of_string (s : string) : text := list_ascii_of_string s.
Definition blank : ascii := " "%char.
Definition dash : ascii := "-"%char.
Definition newline : ascii := ascii_of_nat 10.
Definition escape : ascii := ascii_of_nat 27.

(** What is printed: floats (of python and of numpy), arrays with their number of dimensions and, if that is 0, the item, and
    anything else, by its str(). *)
Inductive item := Float (q : Q) | Other (s : text) | Array (ndim : nat) (content : item).
Inductive outcome (A : Type) := Returns (x : A) | Raises.
Arguments Returns {A}. Arguments Raises {A}.

Section Format.
(** The formats "%7.5f" and "%7.2e" of python. *)
Variables (fixed sci : Q -> text).

(** fmt_item (27-46): the text before it is filled up; [item()] of an array is never an array. *)
Definition rep (x : item) : text :=
  match x with
  | Float q => let value := Qabs q in if (negb (Qle_bool (1 # 10000) value) || negb (Qle_bool value (10000 # 1))) && negb (Qle_bool value 0) then sci q else fixed q
  | Other s => s
  | Array _ _ => []
  end.
Definition unpack (x : item) : outcome item := match x with Array 0 y => Returns y | Array _ _ => Raises | _ => Returns x end.
(** " " * (min_width - len(rep)) + rep (46) *)
Definition fill (width : nat) (s : text) : text := repeat blank (width - length s) ++ s.
Definition fmt_item (x : item) (width : nat) : outcome text :=
  match unpack x with Returns y => Returns (fill width (rep y)) | Raises => Raises end.
(** str.join *)
Fixpoint join (sep : text) (l : list text) : text := match l with [] => [] | [a] => a | a :: r => a ++ sep ++ join sep r end.
Fixpoint mapM (f : item -> outcome text) (l : list item) : outcome (list text) :=
  match l with
  | [] => Returns []
  | x :: r => match f x with Raises => Raises | Returns s => match mapM f r with Raises => Raises | Returns t => Returns (s :: t) end end
  end.
(** fmt_row (11-24) *)
Definition fmt_row (width : nat) (row : list item) (header : bool) : outcome text :=
  match mapM (fun x => fmt_item x width) row with
  | Raises => Raises
  | Returns l => let out := join (of_string " | ") l in Returns (if header then out ++ [newline] ++ repeat dash (length out) else out)
  end.
End Format.

(** COLOR_TO_NUM (49-59) *)
Definition colors : list (string * nat) :=
  [("gray", 30); ("red", 31); ("green", 32); ("yellow", 33); ("blue", 34); ("magenta", 35); ("cyan", 36); ("white", 37); ("crimson", 38)]%string.
Fixpoint lookup (c : string) (l : list (string * nat)) : option nat := match l with [] => None | (k, v) :: r => if String.eqb c k then Some v else lookup c r end.
(** str of a number of two digits: all that occur are. *)
Definition digit (n : nat) : ascii := ascii_of_nat (48 + n).
Definition str2 (n : nat) : text := [digit (n / 10); digit (n mod 10)].
(** colorize (62-78) *)
Definition colorize (s : text) (color : string) (bold highlight : bool) : outcome text :=
  match lookup color colors with
  | None => Raises
  | Some num =>
      let num := if highlight then num + 10 else num in
      let attr := join (of_string ";") (str2 num :: if bold then [of_string "1"] else []) in
      Returns ([escape] ++ of_string "[" ++ attr ++ of_string "m" ++ s ++ [escape] ++ of_string "[0m")
  end.
