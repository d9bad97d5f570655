(** What saving and loading should keep, without reference to the model's own computations. *)
From Coq Require Import Ascii String List Arith ZArith Bool.
From Verif Require Import SV_Model.
Import ListNotations.
Open Scope string_scope.

(** What json can write: no objects, only basic values as keys. *)
Inductive json_ok : py -> Prop :=
| ok_none : json_ok PNone | ok_bool b : json_ok (PBool b) | ok_int z : json_ok (PInt z) | ok_float f : json_ok (PFloat f) | ok_str s : json_ok (PStr s)
| ok_list l : Forall json_ok l -> json_ok (PList l) | ok_tuple l : Forall json_ok l -> json_ok (PTuple l)
| ok_dict l : Forall (fun x => (forall id, fst x <> KOther id) /\ json_ok (snd x)) l -> json_ok (PDict l).
(** Values without tuples, whose dictionaries have texts as keys, none twice. *)
Inductive clean : py -> Prop :=
| cl_none : clean PNone | cl_bool b : clean (PBool b) | cl_int z : clean (PInt z) | cl_float f : clean (PFloat f) | cl_str s : clean (PStr s)
| cl_list l : Forall clean l -> clean (PList l)
| cl_dict l : NoDup (map fst l) -> Forall (fun x => (exists s, fst x = KStr s) /\ clean (snd x)) l -> clean (PDict l).
Definition marker : string := ":serialized:".
(** A clean value that does not look like a pickled one. *)
Definition plain_item (v : py) : Prop := clean v /\ forall l, v = PDict l -> ~ In (KStr marker) (map fst l).
(** The names json would have to write for a value it refuses: basic, and not the marker. *)
Definition ordinary (k : key) : Prop := match k with KStr s => s <> marker | KOther _ => False | _ => True end.
Definition ordinary_names (v : py) : Prop :=
  match v with PDict l => Forall ordinary (map fst l) | PObj _ (Some l) => Forall ordinary (map (fun x => KStr (fst x)) l) | _ => True end.
(** A value json refuses, that pickle can restore. *)
Definition pickled_item (pickle : py -> string) (unpickle : string -> option py) (v : py) : Prop :=
  ~ json_ok v /\ unpickle (pickle v) = Some v /\ ordinary_names v.
(** The texts of numbers are not the marker. *)
Definition sane_texts (int_text float_text : Z -> string) : Prop := forall z, int_text z <> marker /\ float_text z <> marker.
(** v replaced by the custom object of this name, if there is one. *)
Definition or_custom (custom : list (string * py)) (x : string * py) : string * py :=
  (fst x, match find (fun c => fst x =? fst c) custom with Some c => snd c | None => snd x end).

(** A path with an extension: its last component has a dot behind something other than dots. *)
Definition has_ext (p : chars) : Prop :=
  exists dir stem e, p = (dir ++ stem ++ dot :: e)%list /\ (dir = [] \/ exists d, dir = (d ++ [slash])%list) /\ ~ In slash stem /\ ~ In slash e /\ ~ In dot e /\ exists c, In c stem /\ c <> dot.

(** The arguments a saved model forgets. *)
Definition lost (a : algo) : list string := match a with DQN => ["exploration_initial_eps"; "buffer_size"] | ACER => ["buffer_size"] | _ => [] end.
(** How many environments an environment holds. *)
Definition count (e : env) : nat := match e_num e with Some n => n | None => 1 end.
