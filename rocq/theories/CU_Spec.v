(** What C128 is stated with. *)
From Coq Require Import ZArith String List Bool.
From Verif Require Import CU_Model.
Import ListNotations.
Open Scope list_scope.
Open Scope Z_scope.
(** The seed and the log file of the environment of a rank. *)
Definition seed_of (c : config) (rank : Z) : option Z := match seed c with Some s => Some (s + rank) | None => None end.
Definition file_of (c : config) (f : fs) (rank : Z) : option string :=
  match monitor_dir c with Some d => Some (monitor_file f (join d (str rank))) | None => None end.
Definition expected (c : config) (f : fs) (rank : Z) : env :=
  Env (match env_id c with Id i => Made i | Class => Constructed (env_kwargs c) end) (seed_of c rank) (seed_of c rank) (file_of c f rank) (wrapper_class c).
(** A directory that can be made, in which no log file is a directory. *)
Definition usable (c : config) (f : fs) (rs : list Z) : Prop :=
  forall d, monitor_dir c = Some d -> d <> EmptyString /\ (forall e, f d <> Some (File e)) /\ forall r p, In r rs -> file_of c f r = Some p -> isdir f p = false.
