(** C114: the log directory of a run from an input file. *)
From Coq Require Import Ascii String List Arith Bool.
From Verif Require Import LD_Model LD_Spec LD_Proofs LD_Final LD_Demo.
Import ListNotations.
Open Scope nat_scope.

(** C114: a log directory that exists is moved, with all it holds, to the old one, whose earlier contents are gone; the
    new one holds the header files of the algorithms only; everything else is left alone. *)
Theorem C114_kept : forall shown ms nx ny xs ys input fs fs', tree fs -> lookup fs (log_of input) = Some DirN ->
  initfiles shown ms nx ny xs ys (log_dir input) fs = Done fs' ->
  (forall s, lookup fs' (old_of input ++ s) = lookup fs (log_of input ++ s)) /\
  only_headers (log_of input) ms (header (columns shown nx "x" xs)) (header (columns shown ny "y" ys)) fs' /\
  (forall q, ~ inside (log_of input) q -> ~ inside (old_of input) q -> lookup fs' q = lookup fs q).
Proof. exact kept_ld. Qed.
Print Assumptions C114_kept.

(** C114: if there is no log directory, one is made with the directories on the way, and the old one stays. *)
Theorem C114_new : forall shown ms nx ny xs ys input fs fs', tree fs -> lookup fs (log_of input) = None ->
  initfiles shown ms nx ny xs ys (log_dir input) fs = Done fs' ->
  only_headers (log_of input) ms (header (columns shown nx "x" xs)) (header (columns shown ny "y" ys)) fs' /\
  (forall q, ~ inside (log_of input) q -> lookup fs' q = if strip q (log_of input) then Some DirN else lookup fs q) /\
  (forall s, lookup fs' (old_of input ++ s) = lookup fs (old_of input ++ s)).
Proof. exact new_ld. Qed.
Print Assumptions C114_new.

(** C114: what a run leaves is again a file system in which the next run can start. *)
Theorem C114_tree : forall shown ms nx ny xs ys input fs fs', tree fs ->
  initfiles shown ms nx ny xs ys (log_dir input) fs = Done fs' -> tree fs'.
Proof. exact tree_ld. Qed.
Print Assumptions C114_tree.

(** C114: only one earlier log is kept: the log before it is nowhere any more. *)
Theorem C114_lost_refuted : exists fs fs' text, tree fs /\ (exists p, lookup fs p = Some (FileN text)) /\
  initfiles digit ["dqn"; "ga"]%string 3 1 ["x"%string] ["cost"%string] (log_dir "case.inp") fs = Done fs' /\
  forall p, lookup fs' p <> Some (FileN text).
Proof. exact lost_ld. Qed.
Print Assumptions C114_lost_refuted.

(** C114: names whose number is not the declared one raise before anything is moved. *)
Theorem C114_checks : forall shown ms nx ny xs ys dir fs,
  (exists a t, ys = a :: t /\ a <> "y"%string /\ length ys <> ny) \/ (exists a t, xs = a :: t /\ a <> "x"%string /\ length xs <> nx) ->
  initfiles shown ms nx ny xs ys dir fs = Raised fs.
Proof. exact checks_ld. Qed.
Print Assumptions C114_checks.

(** C114: otherwise a run of an input file of the working directory gets its directory, unless a file has its name. *)
Theorem C114_completes : forall shown ms nx ny xs ys input fs, tree fs -> no_slash (before_dot input) = true ->
  checked nx "x" xs = true -> checked ny "y" ys = true ->
  (forall t, lookup fs (log_of input) <> Some (FileN t)) -> (forall t, lookup fs (old_of input) <> Some (FileN t)) ->
  exists fs', initfiles shown ms nx ny xs ys (log_dir input) fs = Done fs'.
Proof. exact completes_ld. Qed.
Print Assumptions C114_completes.

(** C114: a run whose log exists raises if the directory of the old name does not exist, and leaves all as it was. *)
Theorem C114_directory_raises : forall shown ms nx ny xs ys input fs, tree fs -> lookup fs (log_of input) = Some DirN ->
  lookup fs (parent (old_of input)) <> Some DirN -> initfiles shown ms nx ny xs ys (log_dir input) fs = Raised fs.
Proof. exact parent_raises. Qed.
Print Assumptions C114_directory_raises.

(** C114: so an input file in a directory runs once: the second run raises. *)
Theorem C114_second_refuted : exists fs fs', tree fs /\
  initfiles digit ["dqn"]%string 3 1 ["x"%string] ["y"%string] (log_dir "runs/case.inp") fs = Done fs' /\
  initfiles digit ["dqn"]%string 3 1 ["x"%string] ["y"%string] (log_dir "runs/case.inp") fs' = Raised fs'.
Proof. exact directory_ld. Qed.
Print Assumptions C114_second_refuted.

(** C114: the files have two columns more than there are numbers, for default names and for names of the user. *)
Theorem C114_columns : forall shown n dflt names, checked n dflt names = true ->
  names = [dflt] \/ (exists a t, names = a :: t /\ a <> dflt) -> length (columns shown n dflt names) = 2 + n.
Proof. exact columns_ld. Qed.
Print Assumptions C114_columns.

(** C114: names of which the first is the default name are not counted: any number of them passes. *)
Theorem C114_columns_refuted : forall shown dflt b t n, checked n dflt (dflt :: b :: t) = true /\
  length (columns shown n dflt (dflt :: b :: t)) = 4 + length t.
Proof. exact columns_miss. Qed.
Print Assumptions C114_columns_refuted.

(** C114: two input files have the same log directory exactly if they agree before their first dots. *)
Theorem C114_names : forall a b, log_dir a = log_dir b <-> before_dot a = before_dot b.
Proof. exact log_dir_eq. Qed.
Print Assumptions C114_names.

(** C114: so input files that differ after a first dot share it. *)
Theorem C114_shared_refuted : forall a s t, log_dir (a ++ "." ++ s) = log_dir (a ++ "." ++ t).
Proof. exact shared_ld. Qed.
Print Assumptions C114_shared_refuted.

(** C114: all input files given as ./name or ../name share the directory _log. *)
Theorem C114_dotted_refuted : forall s, log_dir ("." ++ s) = "_log/"%string.
Proof. exact dotted_ld. Qed.
Print Assumptions C114_dotted_refuted.
