(** What is expected of the log directory of a run. *)
From Coq Require Import Ascii String List Arith Bool.
From Verif Require Import LD_Model.
Import ListNotations.
Open Scope nat_scope.

(** What holds something is a directory. *)
Definition tree (fs : fsys) : Prop :=
  forall p a n, lookup fs (p ++ [a]) = Some n -> lookup fs p = Some DirN.
(** [q] is [p] or inside it. *)
Definition inside (p q : path) : Prop := exists s, q = p ++ s.

(** The log directory of an input file and the directory its earlier contents go to. *)
Definition log_of (input : string) : path := path_of (log_dir input).
Definition old_of (input : string) : path := path_of (old_dir (log_dir input)).

(** The directory [l] holds the two files of each algorithm, and nothing else. *)
Definition only_headers (l : path) (methods : list string) (hin hout : string) (fs : fsys) : Prop :=
  lookup fs l = Some DirN /\
  (forall m, In m methods -> lookup fs (l ++ [(m ++ "_inp.csv")%string]) = Some (FileN hin) /\
                             lookup fs (l ++ [(m ++ "_out.csv")%string]) = Some (FileN hout)) /\
  (forall s, s <> [] -> (forall m, In m methods -> s <> [(m ++ "_inp.csv")%string] /\ s <> [(m ++ "_out.csv")%string]) ->
     lookup fs (l ++ s) = None).

(** A name without a slash. *)
Fixpoint no_slash (s : string) : bool :=
  match s with EmptyString => true | String c t => if ascii_dec c "/" then false else no_slash t end.
