(** What the logger should do. *)
From Coq Require Import Ascii String List Arith ZArith QArith Bool.
From Verif Require Import LG_Model.
Import ListNotations.
Open Scope nat_scope.

(** The operations on one key, without the others. *)
Definition concerns (k : text) (o : op) : bool :=
  match o with Log j _ | Mean j _ => text_eqb k j | Profile name _ => text_eqb k (t "wait_" ++ name) | Dump | Level _ => false end.
Definition on (k : text) (ops : list op) : list op := filter (concerns k) ops.
Definition no_dump (ops : list op) : Prop := ~ In Dump ops.
Definition no_level (ops : list op) : Prop := forall z, ~ In (Level z) ops.
Definition qsum (l : list Q) : Q := fold_right Qplus 0%Q l.
Definition count {A} (l : list A) : Q := inject_Z (Z.of_nat (length l)).
(** The operations between dumps: one list for every dump. *)
Fixpoint iterations (acc ops : list op) : list (list op) :=
  match ops with [] => [] | Dump :: r => acc :: iterations [] r | o :: r => iterations (acc ++ [o]) r end.

(** A text cut at a character, and the table that a file of comma separated values stands for: every line ends with a newline. *)
Fixpoint split (c : ascii) (s : text) : list text :=
  match s with
  | [] => [[]]
  | x :: r => if ascii_dec x c then [] :: split c r else match split c r with [] => [[x]] | l :: ls => (x :: l) :: ls end
  end.
Definition table (f : text) : list (list text) := map (split comma) (removelast (split newline f)).
(** A text without separators (a carriage return would be read as a newline). *)
Definition clean (s : text) : Prop := ~ In comma s /\ ~ In newline s /\ ~ In "013"%char s.
(** What stands in the column k: nothing for a key that was not logged, or logged as None. *)
Definition printed (shown : val -> text) (kvs : dict val) (k : text) : text :=
  match get k kvs with Some Nothing => [] | Some v => shown v | None => [] end.
Definition dictionary {B} (d : dict B) : Prop := NoDup (map fst d).
Definition clean_dict (shown : val -> text) (d : dict val) : Prop := forall k v, In (k, v) d -> clean k /\ clean (shown v).

(** A row of the human readable table: the greatest of the keys that are cut to k'. *)
Definition human_row (shown : val -> text) (general : Q -> text) (kvs : dict val) (k' v' : text) : Prop :=
  exists k v, In (k, v) kvs /\ k' = truncate k /\ v' = truncate (valstr shown general v) /\
    (forall k2 v2, In (k2, v2) kvs -> truncate k2 = k' -> text_leb k2 k = true).
Fixpoint increasing {B} (d : dict B) : Prop :=
  match d with [] => True | p :: r => (forall q, In q r -> text_leb (fst p) (fst q) = true /\ fst p <> fst q) /\ increasing r end.
(** Scopes that only contain scopes. *)
Fixpoint scopes_only (c : cmd) : bool := match c with Scope body => forallb scopes_only body | _ => false end.
(** Loggers made so far: the current one and the open ones. *)
Definition made (w : world) : Prop := current w < fresh w /\ forall n, In n (opened w) -> n < fresh w.
(** Values a JSON output takes: an array whose first dimension is 1 must have one element. *)
Definition json_plain (v : val) : Prop := match v with Arr (1 :: _) d => exists x, d = [x] | _ => True end.
(** Arrays with one element and no dimension, or 1 as the first, become numbers, other arrays become lists, everything else stays. *)
Definition one_element (s : list nat) (d : list Q) : Prop := exists x, d = [x] /\ (s = [] \/ exists r, s = 1 :: r).
Inductive json_value : val -> val -> Prop :=
| json_num x : json_value (Num x) (Num x)
| json_txt s : json_value (Txt s) (Txt s)
| json_none : json_value Nothing Nothing
| json_lst s d : json_value (Lst s d) (Lst s d)
| json_one s x : s = [] \/ (exists r, s = 1 :: r) -> json_value (Arr s [x]) (Num x)
| json_arr s d : ~ one_element s d -> json_value (Arr s d) (Lst s d).
(** An output after some dumps. *)
Definition dumped shown general order number (o : output) (dumps : list (dict val)) : output :=
  fold_left (fun o d => fst (fst (write_one shown general order number o d))) dumps o.
