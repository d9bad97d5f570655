(** Specification of tuning from an input file. *)
From Coq Require Import Ascii String List Arith ZArith QArith Bool Permutation Sorted.
From Verif Require Import IP_Model TU_Model.
Import ListNotations.
Open Scope list_scope.
Open Scope nat_scope.

(** A template seen as plain text with holes: the hole w is written {w}. *)
Inductive piece := Txt (s : text) | Hole (w : text).
Definition plain (s : text) : Prop := forall c, In c s -> c <> "{"%char /\ c <> "}"%char.
Definition name (w : text) : text := "{"%char :: w ++ ["}"%char].
Definition content (p : piece) : text := match p with Txt s => s | Hole w => w end.
Definition written (p : piece) : text := match p with Txt s => s | Hole w => name w end.
Definition source (ps : list piece) : text := List.concat (map written ps).
(** No braces inside braces. *)
Definition flat (ps : list piece) : Prop := Forall (fun p => plain (content p)) ps.
(** The template with values for some holes, all at once. *)
Definition value_of (w : text) (s : list (text * text)) : option text :=
  match find (fun x => teqb w (fst x)) s with Some x => Some (snd x) | None => None end.
Definition filled (s : list (text * text)) (ps : list piece) : text :=
  List.concat (map (fun p => match p with Txt u => u | Hole w => match value_of w s with Some v => v | None => name w end end) ps).

(** The lines of an input file around its TUNE card. *)
Definition no_mark (l : text) : Prop := contains (t "READ TUNE") l = false /\ contains (t "END TUNE") l = false.
Definition reads (l : text) : Prop := contains (t "READ TUNE") l = true /\ contains (t "END TUNE") l = false.
Definition ends (l : text) : Prop := contains (t "READ TUNE") l = false /\ contains (t "END TUNE") l = true.

(** The tuned entries of the card, and the numbers of combinations. *)
Definition tuned_items (card : list (text * text)) : list (text * text) := filter (fun kv => tuned (fst kv)) card.
Fixpoint times (l : list nat) : nat := match l with [] => 1 | x :: r => x * times r end.

(** A value of the declared range. *)
Definition within {V} (d : dist V) (g : gene V) : Prop :=
  match d, g with
  | DFloat lo hi, GFloat q => (lo <= hi -> lo <= q /\ q <= hi)%Q
  | DNormal _ _, GFloat _ => True
  | DInt lo hi, GInt z => (lo <= z <= hi)%Z
  | DGrid vals, GVal v => In v vals
  | _, _ => False
  end.
(** A range that has a value. *)
Definition inhabited {V} (d : dist V) : Prop :=
  match d with DInt lo hi => (lo <= hi)%Z | DGrid vals => vals <> [] | _ => True end.
(** What random.random() can answer. *)
Definition unit (x : draw) : Prop := (0 <= du x /\ du x < 1)%Q.

(** The words that name a distribution. *)
Definition words : list text := map t ["u"; "float"; "n"; "randint"; "int"; "grid"]%string.
