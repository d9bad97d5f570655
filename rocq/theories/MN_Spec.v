(** Specification for the command line (C118). *)
From Coq Require Import Ascii String List Arith ZArith Bool.
Import ListNotations.
Require Import Verif.IP_Model Verif.IP_Spec Verif.MN_Model.
Open Scope list_scope. Open Scope nat_scope.

Definition braced (k : text) : Prop := In "{"%char k \/ In "}"%char k.
Section Cards.
  Variable isspace : ascii -> bool.
  Context {D F : Type}.
  Variable to_float : text -> option F.
  Variable trunc : F -> option Z.
  Variable dict_text : D -> text.
  (** A name of a TUNE card and what it is read as: a name with a brace keeps its text; any other is a name of the
      table, and its value is read as in other cards, or as a truth that is never false but for an empty text. *)
  Inductive tune_reads : text -> @value D -> @item D F -> Prop :=
  | reads_hole k v : braced k -> tune_reads k v (Hole v)
  | reads_flag k n v b : ~ braced k -> In (k, (n, KBool)) tune_table -> (b = false <-> v = Raw []) -> tune_reads k v (Val (VBool b))
  | reads_val k n kd v x : ~ braced k -> In (k, (n, kd)) tune_table -> kd <> KBool -> reads_as isspace to_float trunc dict_text kd v x -> tune_reads k v (Val x).
  Definition tune_block (d : list (text * @value D)) (p : list (text * @item D F)) : Prop := Forall2 (fun x y => fst y = fst x /\ tune_reads (fst x) (snd x) (snd y)) d p.
  (** neorl_mode of the GENERAL card. *)
  Definition neorl_mode (default : text -> text -> option (@val D F)) (g' : list (text * @val D F)) : text := match final default (t "GENERAL") g' (t "neorl_mode") with Some (VStr s) => s | _ => [] end.
  (** A card of the file that is not switched off with flag = False. *)
  Definition switched_on (algs : list (text * list (text * @value D))) (c : text) : bool :=
    match dget c algs with Some d => match dget (t "flag") d with Some (Raw s) => negb (teqb s (t "False")) | _ => true end | None => false end.
End Cards.
(** The processes started. *)
Definition started (l : list act) : list text := flat_map (fun a => match a with Start c => [c] | _ => [] end) l.
(** Something is read or written. *)
Definition touches (a : act) : Prop := match a with Help | ShowExample | Tests => False | _ => True end.
