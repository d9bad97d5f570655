(** The log directory of a run from an input file: neorl/utils/initfiles.py and the name of the directory
    (neorl/parsers/PARSER.py 36-40).

    Simplifications.  A file system is a list of paths with what is there; paths are relative to the working directory
    or absolute, and no link makes two of them the same place.  Names hold no character the shell treats specially
    (the old directory is removed by a shell command), case names hold no slash.  Permissions, full disks and other processes are left out.
    [logo] is not used by the code.  Printing is left out. *)
From Coq Require Import Ascii String List Arith Bool Lia.
Import ListNotations.
Open Scope nat_scope.

(** ** The file system. *)
Inductive node : Type := DirN | FileN (text : string).
Definition path := list string.
Definition fsys := list (path * node).
Definition path_eqb (p q : path) : bool := if list_eq_dec string_dec p q then true else false.
Fixpoint entry (fs : fsys) (p : path) : option node :=
  match fs with
  | [] => None
  | (q, n) :: t => if path_eqb q p then Some n else entry t p
  end.
(** The working directory and the root always exist. *)
Definition lookup (fs : fsys) (p : path) : option node :=
  match p with
  | [] => Some DirN
  | _ => if path_eqb p ["/"%string] then Some DirN else entry fs p
  end.

(** [strip p q]: the rest of [q] after [p], if [q] is [p] or inside it. *)
Fixpoint strip (p q : path) : option path :=
  match p, q with
  | [], _ => Some q
  | a :: p', b :: q' => if string_dec a b then strip p' q' else None
  | _ :: _, [] => None
  end.
Definition remove_tree (p : path) (fs : fsys) : fsys :=
  filter (fun e => match strip p (fst e) with Some _ => false | None => true end) fs.
Definition move_tree (p q : path) (fs : fsys) : fsys :=
  map (fun e => match strip p (fst e) with Some s => (q ++ s, snd e) | None => e end) fs.
Definition parent (p : path) : path := removelast p.

(** [os.rename] of a directory: the parent of the new name is a directory, the new name is free. *)
Definition rename (p q : path) (fs : fsys) : option fsys :=
  match lookup fs (parent q), lookup fs q with
  | Some DirN, None => Some (move_tree p q fs)
  | _, _ => None
  end.
(** [os.makedirs] of a name that is not a directory yet: raises if a part of it is a file. *)
Fixpoint make_from (pre rest : path) (fs : fsys) : option fsys :=
  match rest with
  | [] => Some fs
  | a :: t =>
      let p := pre ++ [a] in
      match lookup fs p with
      | Some DirN => make_from p t fs
      | Some (FileN _) => None
      | None => make_from p t (fs ++ [(p, DirN)])
      end
  end.
Definition makedirs (p : path) (fs : fsys) : option fsys := make_from [] p fs.
(** [open(p, 'w')] with a text: replaces the file. *)
Definition put (p : path) (text : string) (fs : fsys) : fsys := (p, FileN text) :: fs.

(** The parts of a name, without the empty ones; an absolute name starts at the root. *)
Fixpoint split_slash (acc s : string) : list string :=
  match s with
  | EmptyString => if string_dec acc "" then [] else [acc]
  | String c t =>
      if ascii_dec c "/" then (if string_dec acc "" then split_slash "" t else acc :: split_slash "" t)
      else split_slash (acc ++ String c "") t
  end.
Definition path_of (s : string) : path :=
  match s with
  | String "/" _ => "/"%string :: split_slash "" s
  | _ => split_slash "" s
  end.

(** ** The names.  PARSER.py 36-40: the input file's name up to its first dot; the old directory, initfiles.py 35. *)
Fixpoint before_dot (s : string) : string :=
  match s with
  | EmptyString => EmptyString
  | String c t => if ascii_dec c "." then EmptyString else String c (before_dot t)
  end.
Definition log_dir (input : string) : string := before_dot input ++ "_log/".
Definition old_dir (dir : string) : string := "old_" ++ dir.

(** ** Columns.  initfiles.py 30-33 and 50-61; [str] of a number is an argument. *)
Section Init.
Context (shown : nat -> string).

Definition checked (n : nat) (dflt : string) (names : list string) : bool :=
  match names with
  | [] => true
  | a :: _ => if string_dec a dflt then true else Nat.eqb n (length names)
  end.
Definition columns (n : nat) (dflt : string) (names : list string) : list string :=
  ["caseid"; "reward"]%string ++
  match names with
  | [a] => if string_dec a dflt then map (fun i => (dflt ++ shown i)%string) (seq 1 n) else names
  | _ => names
  end.
(** A line of the file, initfiles.py 66-70. *)
Fixpoint header (names : list string) : string :=
  match names with
  | [] => ""
  | [a] => a ++ String (ascii_of_nat 10) ""
  | a :: t => a ++ "," ++ header t
  end.

(** How a call ends: the file system it leaves, with or without an exception. *)
Inductive ended : Type := Done (fs : fsys) | Raised (fs : fsys).

(** The directories, initfiles.py 35-48. *)
Definition fresh_dir (dir : string) (fs : fsys) : ended :=
  let l := path_of dir in
  let o := path_of (old_dir dir) in
  match lookup fs l, lookup fs o with
  | Some DirN, Some DirN =>
      let fs1 := remove_tree o fs in
      match rename l o fs1 with
      | None => Raised fs1
      | Some fs2 => match makedirs l fs2 with Some fs3 => Done fs3 | None => Raised fs2 end
      end
  | Some DirN, _ =>
      match rename l o fs with
      | None => Raised fs
      | Some fs2 => match makedirs l fs2 with Some fs3 => Done fs3 | None => Raised fs2 end
      end
  | Some (FileN _), _ => Raised fs
  | None, _ => match makedirs l fs with Some fs3 => Done fs3 | None => Raised fs end
  end.

(** The two files of each algorithm, initfiles.py 63-77. *)
Fixpoint put_files (l : path) (hin hout : string) (methods : list string) (fs : fsys) : fsys :=
  match methods with
  | [] => fs
  | m :: t => put_files l hin hout t
                (put (l ++ [(m ++ "_out.csv")%string]) hout (put (l ++ [(m ++ "_inp.csv")%string]) hin fs))
  end.

(** initfiles.py 27-79. *)
Definition initfiles (methods : list string) (nx ny : nat) (xnames ynames : list string) (dir : string) (fs : fsys)
  : ended :=
  if checked ny "y" ynames then
    if checked nx "x" xnames then
      match fresh_dir dir fs with
      | Raised fs1 => Raised fs1
      | Done fs1 => Done (put_files (path_of dir) (header (columns nx "x" xnames)) (header (columns ny "y" ynames)) methods fs1)
      end
    else Raised fs
  else Raised fs.
End Init.
