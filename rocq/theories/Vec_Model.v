(** neorl/rl/baselines/shared/vec_env/{dummy_vec_env,subproc_vec_env}.py.

    An environment is a state with arbitrary step, reset and call functions (call stands for seed,
    get_attr, set_attr, env_method and render).  The pipes of SubprocVecEnv are FIFO queues, the
    scheduler chooses at every step whether the main process or some worker moves.  Not modelled:
    stacking into arrays, process start, close, and exceptions of an environment. *)
From Coq Require Import List Arith Bool.
From Verif Require Import Base Opt_Model.
Import ListNotations.
Open Scope nat_scope.

Section Vec.
Context {St Act Obs Rew Info Req Val : Type}.
Context (env_step : St -> Act -> St * (Obs * Rew * bool * Info)) (env_reset : St -> St * Obs) (env_call : St -> Req -> St * Val).
(** The conversions of DummyVecEnv's buffers: observations to the dtype of the space, rewards to float32. *)
Context (cast_obs : Obs -> Obs) (cast_rew : Rew -> Rew).

Inductive cmd : Type := CStep (a : Act) | CReset | CCall (q : Req).
(** The info of a step carries the terminal observation when the episode ended. *)
Inductive msg : Type := MStep (o : Obs) (r : Rew) (d : bool) (i : Info) (terminal : option Obs) | MObs (o : Obs) | MVal (v : Val).

(** _worker, subproc_vec_env.py:12-46; the same for one environment in DummyVecEnv.step_wait,
    dummy_vec_env.py:44-52, and reset, dummy_vec_env.py:62-65. *)
Definition handle (s : St) (c : cmd) : St * msg :=
  match c with
  | CStep a =>
      let '(s1, (o, r, d, i)) := env_step s a in
      if d then let '(s2, o2) := env_reset s1 in (s2, MStep o2 r d i (Some o)) else (s1, MStep o r d i None)
  | CReset => let '(s1, o) := env_reset s in (s1, MObs o)
  | CCall q => let '(s1, v) := env_call s q in (s1, MVal v)
  end.

(** Calls of the vectorised environment; OCall is a call on the given environments. *)
Inductive vop : Type := OStep (acts : list Act) | OReset | OCall (q : Req) (indices : list nat).
Definition op_pairs (n : nat) (op : vop) : list (nat * cmd) :=
  match op with
  | OStep acts => combine (seq 0 n) (map CStep acts)
  | OReset => map (fun i => (i, CReset)) (seq 0 n)
  | OCall q indices => map (fun i => (i, CCall q)) indices
  end.

(** DummyVecEnv: one environment after the other; None for an index out of range
    (self.actions[env_idx], self.envs[i]). *)
Fixpoint seq_exec (ss : list St) (ps : list (nat * cmd)) : option (list St * list msg) :=
  match ps with
  | [] => Some (ss, [])
  | (i, c) :: r => let* s := nth_error ss i in
                   let '(s1, m) := handle s c in
                   let* '(ss2, ms) := seq_exec (set_nth ss i s1) r in Some (ss2, m :: ms)
  end.
Definition cast (m : msg) : msg :=
  match m with MStep o r d i t => MStep (cast_obs o) (cast_rew r) d i t | MObs o => MObs (cast_obs o) | MVal v => MVal v end.
Definition dummy_op (ss : list St) (op : vop) : option (list St * list msg) :=
  match op with
  | OStep acts => if length acts <? length ss then None else
                  let* '(ss2, ms) := seq_exec ss (op_pairs (length ss) op) in Some (ss2, map cast ms)
  | _ => let* '(ss2, ms) := seq_exec ss (op_pairs (length ss) op) in Some (ss2, map cast ms)
  end.
Fixpoint dummy_run (ss : list St) (ops : list vop) : option (list St * list (list msg)) :=
  match ops with
  | [] => Some (ss, [])
  | op :: r => let* '(ss1, ms) := dummy_op ss op in let* '(ss2, mss) := dummy_run ss1 r in Some (ss2, ms :: mss)
  end.

(** SubprocVecEnv, the main process: step_async and step_wait, subproc_vec_env.py:101-110; reset,
    118-122; env_method and the like, 144-168. *)
Inductive instr : Type := Send (i : nat) (c : cmd) | Recv (i : nat).
Definition sends_of (ps : list (nat * cmd)) : list instr := map (fun p => Send (fst p) (snd p)) ps.
Definition compile (n : nat) (op : vop) : list instr :=
  sends_of (op_pairs n op) ++
  map Recv (match op with OCall _ indices => indices | _ => seq 0 n end).
Definition compile_all (n : nat) (ops : list vop) : list instr := flat_map (compile n) ops.
(** step_async without step_wait yet. *)
Definition compile_async (n : nat) (acts : list Act) : list instr := sends_of (op_pairs n (OStep acts)).
Definition compile_wait (n : nat) : list instr := map Recv (seq 0 n).

(** A worker: its environment, the commands and the answers under way. *)
Record worker : Type := Worker { w_env : St; w_in : list cmd; w_out : list msg }.
Record config : Type := Config { c_main : list instr; c_got : list msg; c_workers : list worker }.
Definition config_new (ss : list St) (prog : list instr) : config := Config prog [] (map (fun s => Worker s [] []) ss).
Inductive choice : Type := Main | Work (i : nat).
(** One move; None when the chosen process is blocked (or finished). *)
Definition move (cf : config) (ch : choice) : option config :=
  match ch with
  | Main =>
      match c_main cf with
      | [] => None
      | Send i c :: r => let* w := nth_error (c_workers cf) i in
                         Some (Config r (c_got cf) (set_nth (c_workers cf) i (Worker (w_env w) (w_in w ++ [c]) (w_out w))))
      | Recv i :: r => let* w := nth_error (c_workers cf) i in
                       match w_out w with
                       | [] => None
                       | m :: o => Some (Config r (c_got cf ++ [m]) (set_nth (c_workers cf) i (Worker (w_env w) (w_in w) o)))
                       end
      end
  | Work i => let* w := nth_error (c_workers cf) i in
              match w_in w with
              | [] => None
              | c :: rest => let '(s, m) := handle (w_env w) c in
                             Some (Config (c_main cf) (c_got cf) (set_nth (c_workers cf) i (Worker s rest (w_out w ++ [m]))))
              end
  end.
Fixpoint moves (cf : config) (sched : list choice) : option config :=
  match sched with [] => Some cf | ch :: r => let* cf1 := move cf ch in moves cf1 r end.
End Vec.
