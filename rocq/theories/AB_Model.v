(** Model of the replay buffer (neorl/rl/baselines/acer/buffer.py) and the episode statistics of ACER (acer_simple.py). *)
From Coq Require Import List Arith ZArith QArith Qround Bool.
Import ListNotations.
Open Scope nat_scope.

(** ** Buffer.  A rollout is one row for each environment, each with its observations, actions, rewards, mus, dones and
    masks; the six arrays are written and read at the same places (buffer.py:115-120, 162-169). *)
Section Buffer.
  Context {X : Type}.
  Record buffer := mkBuffer { slots : list (option (list X)); next : nat; num : nat }.
  (** __init__ (20-21, 44-46) and the first put (107-113): size // n_steps places. *)
  Definition init (size : nat) : buffer := mkBuffer (repeat None size) 0 0.
  Definition places (size n_steps : nat) : nat := size / n_steps.
  Definition set {Y} (k : nat) (y : Y) (l : list Y) : list Y := firstn k l ++ y :: skipn (S k) l.
  (** put (89-123); no place raises. *)
  Definition put (b : buffer) (x : list X) : option buffer :=
    let size := length (slots b) in
    if size =? 0 then None else Some (mkBuffer (set (next b) (Some x) (slots b)) ((next b + 1) mod size) (Nat.min size (num b + 1))).
  Fixpoint puts (b : buffer) (l : list (list X)) : option buffer := match l with [] => Some b | x :: r => match put b x with Some b' => puts b' r | None => None end end.
  (** take (125-138) and get (140-171): for environment i the row i of the place drawn for it; idx: np.random.randint(0,
      num_in_buffer, n_env).  None: the assertion fails. *)
  Definition row (b : buffer) (i k : nat) : option X := match nth_error (slots b) k with Some (Some x) => nth_error x i | _ => None end.
  Fixpoint rows (b : buffer) (i : nat) (idx : list nat) : option (list X) :=
    match idx with [] => Some [] | k :: r => match row b i k, rows b (S i) r with Some x, Some u => Some (x :: u) | _, _ => None end end.
  Definition get (b : buffer) (idx : list nat) : option (list X) := if num b =? 0 then None else rows b 0 idx.
  (** has_atleast (48-57) and can_sample (59-65). *)
  Definition has_atleast (b : buffer) (n_steps frames : nat) : bool := frames / n_steps <=? num b.
End Buffer.
Arguments buffer : clear implicits. Arguments mkBuffer {X}.

(** ** EpisodeStats (acer_simple.py:95-150) with deques of [cap] entries (40).  A rollout: for each environment its rewards
    and whether the episode ended. *)
Definition push {Y} (cap : nat) (q : list Y) (y : Y) : list Y := let q' := q ++ [y] in skipn (length q' - cap) q'.
Record stats := mkStats { partial : list (list Q); lens : list nat; sums : list Q }.
Definition stats_init (n_envs : nat) : stats := mkStats (repeat [] n_envs) [] [].
Definition total (l : list Q) : Q := fold_left Qplus l 0%Q.
(** The inner loop for one environment. *)
Fixpoint feed_row (cap : nat) (p : list Q) (ls : list nat) (ss : list Q) (steps : list (Q * bool)) : list Q * list nat * list Q :=
  match steps with
  | [] => (p, ls, ss)
  | (r, d) :: rest =>
      let p' := p ++ [r] in
      if d then feed_row cap [] (push cap ls (length p')) (push cap ss (total p')) rest else feed_row cap p' ls ss rest
  end.
Fixpoint feed_rows (cap : nat) (ps : list (list Q)) (ls : list nat) (ss : list Q) (rollout : list (list (Q * bool))) : list (list Q) * list nat * list Q :=
  match ps, rollout with
  | p :: ps', row :: rest => let '(p', ls1, ss1) := feed_row cap p ls ss row in let '(ps'', ls2, ss2) := feed_rows cap ps' ls1 ss1 rest in (p' :: ps'', ls2, ss2)
  | _, _ => (ps, ls, ss)
  end.
Definition feed (cap : nat) (s : stats) (rollout : list (list (Q * bool))) : stats := let '(ps, ls, ss) := feed_rows cap (partial s) (lens s) (sums s) rollout in mkStats ps ls ss.
Definition feeds (cap n_envs : nat) (rollouts : list (list (list (Q * bool)))) : stats := fold_left (feed cap) rollouts (stats_init n_envs).
(** mean_length and mean_reward: 0 without an episode. *)
Definition mean_reward (s : stats) : Q := match sums s with [] => 0%Q | l => (total l / inject_Z (Z.of_nat (length l)))%Q end.
Definition mean_length (s : stats) : Q := match lens s with [] => 0%Q | l => (inject_Z (Z.of_nat (list_sum l)) / inject_Z (Z.of_nat (length l)))%Q end.

(** ** np.asarray(obs, dtype=np.uint8) for an observation space of more than one dimension (acer_simple.py:693-706, 753; buffer.py:23-26), for values from 0
    to 255. *)
Definition as_byte (v : Q) : Q := inject_Z (Qfloor v mod 256).
