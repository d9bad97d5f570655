(** Model of a training run from an input file: the runners of DQN, PPO, A2C and ACER (neorl/rl/runners/dqn.py:46-116,
    ppo2.py:75-142, a2c.py:72-133, acer.py:72-137) with the callback they are given (SavePlotCallback,
    neorl/utils/neorlcalls.py:31-103; neorl/utils/multiproc.py:48-86), and the loops of learn (deepq/dqn.py:187-322,
    ppo2/ppo2.py:313-405, a2c/a2c.py:262-309, 354-375, acer/acer_simple.py:568-632, 672-695).

    A model is known by the number of training rounds it has had.  What the environment has written to its csv file
    when a check reads it is arbitrary; so is whether the plot succeeds.  os._exit ends the process. *)
From Coq Require Import Ascii String List Arith ZArith QArith Bool.
Import ListNotations.
Require Import Verif.IP_Model.
Open Scope list_scope. Open Scope nat_scope.

(** ** The loops of learn *)
(** The environments have been stepped, and num_timesteps is t; or the model is trained. *)
Inductive event := Tick (t : nat) | Train.
(** runner.run: n_steps steps of n_envs environments, from num_timesteps = t (a2c.py:356-369; ppo2.py:469-484;
    acer_simple.py:672-690). *)
Fixpoint ticks (n_envs k t : nat) : list event := match k with 0 => [] | S k' => Tick (t + n_envs) :: ticks n_envs k' (t + n_envs) end.
(** The loop over the rollouts, with the training that follows each. *)
Fixpoint rollouts (n_envs n_steps r t : nat) : list event :=
  match r with 0 => [] | S r' => ticks n_envs n_steps t ++ [Train] ++ rollouts n_envs n_steps r' (t + n_steps * n_envs) end.
(** DQN (dqn.py:192-320): whether it trains after a step is a function of the step. *)
Fixpoint dqn_steps (trains : nat -> bool) (k t : nat) : list event :=
  match k with 0 => [] | S k' => Tick (S t) :: (if trains (S t) then [Train] else []) ++ dqn_steps trains k' (S t) end.
Inductive algo := DQN | PPO | A2C | ACER.
(** range(1, total // n_batch + 1) (a2c.py:268, ppo2.py:318), range(0, total, n_batch) (acer_simple.py:569) and
    range(total) (dqn.py:192). *)
Definition learn_events (a : algo) (n_envs n_steps : nat) (trains : nat -> bool) (total : nat) : list event :=
  let n_batch := n_envs * n_steps in
  match a with
  | PPO | A2C => rollouts n_envs n_steps (total / n_batch) 0
  | ACER => rollouts n_envs n_steps ((total + n_batch - 1) / n_batch) 0
  | DQN => dqn_steps trains total 0
  end.

(** ** The callback *)
Record cb := Cb { check_freq : nat; avg_step : nat; total_timesteps : nat }.
(** The training rounds the model has had, the best mean reward (none: minus infinity), and the models in the
    files _bestmodel.pkl and _lastmodel.pkl. *)
Record st := St { rounds : nat; best_mean : option Q; best_file : option nat; last_file : option nat }.
Definition st0 : st := St 0 None None None.
(** np.mean(y[-avg_step:]) (61): nan for no row at all.  y[-0:] is all of y. *)
Definition qsum (l : list Q) : Q := fold_right Qplus 0%Q l.
Definition tail_mean (n : nat) (y : list Q) : option Q :=
  match y with [] => None | _ => let l := skipn (if n =? 0 then 0 else List.length y - n) y in Some (qsum l / inject_Z (Z.of_nat (List.length l)))%Q end.
(** mean_reward > self.best_mean_reward (65). *)
Definition better (m : option Q) (b : option Q) : bool :=
  match m, b with None, _ => false | Some _, None => true | Some x, Some y => negb (Qle_bool x y) end.
(** runcall (53-81); [csv]: the rewards in the file, none if reading it raises; [plot]: whether the plot
    succeeds.  The second result: no exception. *)
Definition runcall (c : cb) (s : st) (csv : option (list Q)) (plot : bool) : st * bool :=
  match csv with
  | None => (s, false)
  | Some y =>
      let m := tail_mean (avg_step c) y in
      let s1 := if better m (best_mean s) then St (rounds s) m (Some (rounds s)) (last_file s) else s in
      (St (rounds s1) (best_mean s1) (best_file s1) (Some (rounds s1)), plot)
  end.
(** What is read and plotted at the time t, and after the loop. *)
Record world := World { csv_at : nat -> option (list Q); plot_at : nat -> bool; csv_end : option (list Q); plot_end : bool }.
Inductive after := Goes (s : st) | Exits (s : st) (status : nat).
(** _on_step (83-96): a check frequency of 0 raises in the test, which the try swallows. *)
Definition due (c : cb) (t : nat) : bool := if check_freq c =? 0 then false else (t mod check_freq c =? 0) || (t =? total_timesteps c).
Definition on_step (c : cb) (w : world) (s : st) (t : nat) : after :=
  let s' := if due c t then fst (runcall c s (csv_at w t) (plot_at w t)) else s in
  if t =? total_timesteps c then Exits s' 1 else Goes s'.
(** learn: the loop, then _on_training_end (98-101): runcall is not guarded there; an exception ends the process
    with status 1 as well. *)
Fixpoint loop (c : cb) (w : world) (evs : list event) (s : st) : after :=
  match evs with
  | [] => Goes s
  | Train :: r => loop c w r (St (S (rounds s)) (best_mean s) (best_file s) (last_file s))
  | Tick t :: r => match on_step c w s t with Goes s' => loop c w r s' | Exits s' x => Exits s' x end
  end.
Definition on_end (c : cb) (w : world) (s : st) : after := Exits (fst (runcall c s (csv_end w) (plot_end w))) 1.
Definition learn (c : cb) (w : world) (evs : list event) (s : st) : after :=
  match loop c w evs s with Goes s' => on_end c w s' | e => e end.

(** ** The runners *)
Inductive mode := MTrain | MContinue | MTest | MOther.
Inductive file := LastModel | ModelLast | BestModel.
(** The name under which the runner saves after learn (dqn.py:92, 111; ppo2.py:115, 131; a2c.py:108, 124;
    acer.py:110, 127). *)
Definition save_name (a : algo) (m : mode) : file := match a, m with (A2C | ACER), MTrain => ModelLast | _, _ => LastModel end.
(** build in the modes train and continue: the files with the models they hold, and the exit status; a model
    that is loaded starts at 0 here. *)
Definition put (f : file) (v : option nat) (l : list (file * nat)) : list (file * nat) := match v with None => l | Some x => (f, x) :: l end.
Definition files_of (s : st) : list (file * nat) := put LastModel (last_file s) (put BestModel (best_file s) []).
Definition train (a : algo) (m : mode) (c : cb) (w : world) (n_envs n_steps : nat) (trains : nat -> bool) : list (file * nat) * nat :=
  match learn c w (learn_events a n_envs n_steps trains (total_timesteps c)) st0 with
  | Exits s x => (files_of s, x)
  | Goes s => (put (save_name a m) (Some (rounds s)) (files_of s), 0)
  end.

(** ** The cards *)
(** The frequency is made a multiple of the cores when the input is checked (PARSER.py:380-387, 399-406, 417-424). *)
Definition adjust (ncores freq : nat) : nat := if ncores <=? 1 then freq else if freq mod ncores =? 0 then freq else freq + ncores - freq mod ncores.
(** One environment for each core (ppo2.py:82-86, a2c.py:81-85, acer.py:81-85). *)
Definition n_envs_of (ncores : nat) : nat := if ncores <=? 1 then 1 else ncores.
Definition card_name (a : algo) : text := match a with DQN => t "DQN" | PPO => t "PPO" | A2C => t "A2C" | ACER => t "ACER" end.
(** The names whose values are given to the constructor or to load, as its arguments of the names beside them
    (dqn.py:84-97, 102-115; ppo2.py:100-113, 118-129; a2c.py:97-106, 112-122; acer.py:97-108, 114-125). *)
Definition same (l : list string) : list (text * text) := map (fun s => (t s, t s)) l.
Definition passed (a : algo) : list (text * text) :=
  match a with
  | DQN => same ["gamma"; "learning_rate"; "buffer_size"; "exploration_fraction"; "eps_final"; "learning_starts"; "batch_size"; "target_network_update_freq"; "eps_init"; "train_freq"; "prioritized_replay"]
  | PPO => same ["n_steps"; "gamma"; "learning_rate"; "ent_coef"; "vf_coef"; "max_grad_norm"; "lam"; "nminibatches"; "noptepochs"; "cliprange"]
  | A2C => same ["n_steps"; "gamma"; "learning_rate"; "vf_coef"; "max_grad_norm"; "ent_coef"; "alpha"; "lr_schedule"]
  | ACER => same ["n_steps"; "gamma"; "learning_rate"; "q_coef"; "max_grad_norm"; "ent_coef"; "lr_schedule"; "buffer_size"; "replay_ratio"; "replay_start"]
  end%string.
(** self.inp.X_dict[name][0]: a name that is not there raises. *)
Fixpoint arguments {V} (l : list (text * text)) (card : list (text * V)) : option (list (text * V)) :=
  match l with
  | [] => Some []
  | (arg, name) :: r => match dget name card, arguments r card with Some v, Some d => Some ((arg, v) :: d) | _, _ => None end
  end.
(** build (modes train and continue) with the checked card: an exception ends the process with status 1. *)
Definition runner {V} (a : algo) (m : mode) (card : list (text * V)) (c : cb) (w : world) (ncores n_steps : nat) (trains : nat -> bool) : list (file * nat) * nat :=
  match arguments (passed a) card with None => ([], 1) | Some _ => train a m c w (n_envs_of ncores) n_steps trains end.
