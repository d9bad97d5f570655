(** Environments made by cmd_util. /repo/neorl/rl/baselines/shared/cmd_util.py, misc_util.py and monitor.py. *)
From Coq Require Import ZArith Ascii String List Bool DecimalString DecimalZ.
Import ListNotations.
Open Scope list_scope.
Open Scope Z_scope.

(** Files: a directory, or a monitor file with its episodes. *)
Inductive node : Type := Dir | File (episodes : list string).
Definition fs : Type := string -> option node.
Definition upd (f : fs) (p : string) (n : node) : fs := fun q => if String.eqb q p then Some n else f q.
Definition isdir (f : fs) (p : string) : bool := match f p with Some Dir => true | _ => false end.

(** str(rank). *)
Definition str (z : Z) : string := NilZero.string_of_int (Z.to_int z).
(** os.path.join for a second part that is not absolute. *)
Fixpoint ends_in_slash (s : string) : bool :=
  match s with EmptyString => false | String c EmptyString => Ascii.eqb c "/"%char | String _ r => ends_in_slash r end.
Definition join (d p : string) : string :=
  match d with
  | EmptyString => p
  | _ => if ends_in_slash d then (d ++ p)%string else (d ++ String "/" p)%string
  end.
(** os.makedirs(d, exist_ok=True): cmd_util.py:59. None: raises. Parents are not modelled. *)
Definition makedirs (d : string) (f : fs) : option fs :=
  match d with
  | EmptyString => None
  | _ => match f d with Some (File _) => None | Some Dir => Some f | None => Some (upd f d Dir) end
  end.
(** The name that Monitor gives its file: monitor.py:40-44. The path ends with a rank, and so never with the extension. *)
Definition ext : string := "monitor.csv".
Definition monitor_file (f : fs) (path : string) : string :=
  if isdir f path then (path ++ String "/" ext)%string else (path ++ String "." ext)%string.
(** open(filename, "wt"): monitor.py:45. An existing file is emptied. None: it is a directory. *)
Definition open_wt (f : fs) (p : string) : option fs := match f p with Some Dir => None | _ => Some (upd f p (File [])) end.

(** What an environment was made from, and what was done to it. *)
Inductive source : Type := Made (id : string) | Constructed (kwargs : list (string * Z)).
Record env : Type := Env { origin : source; seeded : option Z; space_seeded : option Z; logfile : option string; wrapped : bool }.
Inductive env_arg : Type := Id (id : string) | Class.
Record config : Type := Config { env_id : env_arg; seed : option Z; start_index : Z; monitor_dir : option string; wrapper_class : bool;
  env_kwargs : list (string * Z) }.

(** _init of make_env(rank): cmd_util.py:43-65. None: raises. The number counts warnings. *)
Definition init (c : config) (rank : Z) (f : fs) : option (fs * env * nat) :=
  let src := match env_id c with Id i => Made i | Class => Constructed (env_kwargs c) end in
  let warns := match env_id c, env_kwargs c with Id _, _ :: _ => 1%nat | _, _ => 0%nat end in
  let sd := match seed c with Some s => Some (s + rank) | None => None end in
  match monitor_dir c with
  | None => Some (f, Env src sd sd None (wrapper_class c), warns)
  | Some d =>
      match makedirs d f with
      | None => None
      | Some f1 =>
          let file := monitor_file f1 (join d (str rank)) in
          match open_wt f1 file with
          | None => None
          | Some f2 => Some (f2, Env src sd sd (Some file) (wrapper_class c), warns)
          end
      end
  end.
(** Environments are made one after the other: DummyVecEnv, dummy_vec_env.py:22-24, in the order of the list; SubprocVecEnv,
    subproc_vec_env.py:80-97, each in its own process, in any order. *)
Fixpoint init_all (c : config) (ranks : list Z) (f : fs) : option (fs * list env * nat) :=
  match ranks with
  | [] => Some (f, [], 0%nat)
  | r :: rest =>
      match init c r f with
      | None => None
      | Some (f1, e, w) => match init_all c rest f1 with None => None | Some (f2, es, ws) => Some (f2, e :: es, (w + ws)%nat) end
      end
  end.
(** range(n), and the ranks: cmd_util.py:72,108. *)
Definition ranks (n start : Z) : list Z := map (fun i => Z.of_nat i + start) (seq 0 (Z.to_nat n)).
(** make_vec_env with DummyVecEnv, the default: cmd_util.py:67-72. None: raises, IndexError without environments. *)
Definition make_vec_env (c : config) (n : Z) (f : fs) : option (fs * list env * nat) :=
  match ranks n (start_index c) with
  | [] => None
  | rs => init_all c rs f
  end.

(** make_atari_env: cmd_util.py:104-111. *)
Inductive kind : Type := DummyVecEnv | SubprocVecEnv.
Definition atari_kind (num_env : Z) (use_subprocess : bool) : kind :=
  if (Z.eqb num_env 1 || negb use_subprocess)%bool then DummyVecEnv else SubprocVecEnv.
(** Its environments, with the directory of the logger: cmd_util.py:96-103. No directory is made and the space is not seeded; the
    wrappers around the monitor are those of C103. *)
Definition atari_init (id : string) (sd : Z) (dir : option string) (rank : Z) (f : fs) : option (fs * env) :=
  match dir with
  | None => Some (f, Env (Made id) (Some (sd + rank)) None None true)
  | Some d =>
      let file := monitor_file f (match d with EmptyString => EmptyString | _ => join d (str rank) end) in
      match open_wt f file with None => None | Some f1 => Some (f1, Env (Made id) (Some (sd + rank)) None (Some file) true) end
  end.

(** mpi4py: not installed; installed, where the submodule MPI is or is not already imported by someone. *)
Inductive mpi : Type := NotInstalled | Installed (imported : bool) (rank : Z).
(** mpi_rank_or_zero: misc_util.py:48-57: import mpi4py does not import mpi4py.MPI. None: AttributeError. *)
Definition mpi_rank_or_zero (m : mpi) : option Z :=
  match m with NotInstalled => Some 0 | Installed true r => Some r | Installed false _ => None end.
(** set_global_seeds: misc_util.py:20-31. np.random.seed takes 0 to 2^32 - 1 and raises ValueError otherwise. *)
Definition set_global_seeds (s : Z) : option Z := if (0 <=? s) && (s <? 2 ^ 32) then Some s else None.
(** make_mujoco_env: cmd_util.py:114-127: the seed of the generators, the seed of the environment and the path for Monitor. *)
Definition make_mujoco_env (m : mpi) (sd : Z) (dir : option string) : option (Z * Z * string) :=
  match mpi_rank_or_zero m with
  | None => None
  | Some r =>
      match set_global_seeds (sd + 10000 * r), dir with
      | Some g, Some d => Some (g, sd, join d "0")
      | _, _ => None
      end
  end.
