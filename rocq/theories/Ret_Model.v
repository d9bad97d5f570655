(** Returns and advantages: neorl/rl/baselines/ppo2/ppo2.py, a2c/a2c.py, acer/acer_simple.py,
    shared/math_util.py and the batch layout functions of shared/tf_util.py.

    Numbers are exact rationals.  An array of shape [(n_steps, n_envs)] is the list of its rows.
    A boolean flag used in arithmetic is 0 or 1. *)
From Coq Require Import List Arith ZArith QArith Bool.
From Verif Require Import Base Opt_Model.
Import ListNotations.
Open Scope nat_scope.

Definition b2q (b : bool) : Q := if b then 1%Q else 0%Q.

(** * PPO2: Runner._run, ppo2.py:507-521 *)
Section GAE.
Context (gamma lam : Q).
(** Lines 511-519 for one step: rewards, values and the flags and values of the next step are
    vectors over the environments; [last] is last_gae_lam. *)
Definition gae_row (rew val nextvalues : list Q) (nextdone : list bool) (last : list Q) : list Q :=
  let nonterm := map (fun d => 1 - b2q d)%Q nextdone in
  let delta := map2 Qminus (map2 Qplus rew (map2 Qmult (map (Qmult gamma) nextvalues) nonterm)) val in
  map2 Qplus delta (map2 Qmult (map (Qmult (gamma * lam)) nonterm) last).
(** Lines 507-519: for step in reversed(range(n_steps)).  mb_advs[step] is written once, from the
    last row to the first, so the rows are pushed on a list.  [dones] is self.dones after the
    rollout, [mb_dones] the flags before each step. *)
Definition gae_advs (mb_rewards mb_values : list (list Q)) (mb_dones : list (list bool)) (dones : list bool) (last_values : list Q) : list (list Q) :=
  let n := length mb_rewards in
  fst (fold_left (fun acc step =>
         let row := gae_row (nth step mb_rewards []) (nth step mb_values [])
                      (if step =? n - 1 then last_values else nth (step + 1) mb_values [])
                      (if step =? n - 1 then dones else nth (step + 1) mb_dones [])
                      (snd acc) in
         (row :: fst acc, row))
       (rev (seq 0 n)) ([], map (fun _ => 0%Q) dones)).
(** Line 520. *)
Definition gae_returns mb_rewards mb_values mb_dones dones last_values : list (list Q) :=
  map2 (map2 Qplus) (gae_advs mb_rewards mb_values mb_dones dones last_values) mb_values.
End GAE.

(** swap_and_flatten, ppo2.py:529-537, for an array of shape [(n_steps, k)]: transposes and
    concatenates.  The elements may themselves be arrays.  [d] is never returned for a rectangular
    array with [k] columns. *)
Definition swap_axes {A} (d : A) (k : nat) (m : list (list A)) : list (list A) := map (fun e => map (fun row => nth e row d) m) (seq 0 k).
Definition swap_and_flatten {A} (d : A) (k : nat) (m : list (list A)) : list A := concat (swap_axes d k m).

(** * math_util.py *)
(** discount, math_util.py:16-27.  scipy.signal.lfilter([1], [1, -gamma], x) is
    y[0] = x[0], y[i] = x[i] + gamma * y[i-1]. *)
Fixpoint lfilter (gamma prev : Q) (x : list Q) : list Q :=
  match x with
  | [] => []
  | a :: r => let y := (a + gamma * prev)%Q in y :: lfilter gamma y r
  end.
Definition discount (vector : list Q) (gamma : Q) : list Q := rev (lfilter gamma 0 (rev vector)).

(** discount_with_boundaries, math_util.py:98-114, for float rewards.  None is an IndexError. *)
Definition discount_with_boundaries (rewards : list Q) (episode_starts : list bool) (gamma : Q) : option (list Q) :=
  let n := length rewards in
  let* last := nth_error rewards (n - 1) in
  let* r := fold_left (fun acc step =>
       let* a := acc in
       let* x := nth_error rewards step in
       let* s := nth_error episode_starts (step + 1) in
       let* y := nth_error a 0 in
       Some ((x + gamma * y * (1 - b2q s))%Q :: a))
     (rev (seq 0 (n - 1))) (Some [last]) in
  Some r.

(** scale_action and unscale_action, math_util.py:117-140, for one coordinate. *)
Definition scale_action (low high a : Q) : Q := (2 * ((a - low) / (high - low)) - 1)%Q.
Definition unscale_action (low high s : Q) : Q := (low + (1 # 2) * (s + 1) * (high - low))%Q.

(** explained_variance, math_util.py:30-46; None is NaN. *)
Definition qsum (l : list Q) : Q := fold_right Qplus 0%Q l.
Definition qmean (l : list Q) : Q := (qsum l / inject_Z (Z.of_nat (length l)))%Q.
Definition qvar (l : list Q) : Q := qmean (map (fun x => (x - qmean l) * (x - qmean l))%Q l).
Definition explained_variance (y_pred y_true : list Q) : option Q :=
  if Qeq_bool (qvar y_true) 0 then None else Some (1 - qvar (map2 Qminus y_true y_pred) / qvar y_true)%Q.
(** explained_variance_2d, math_util.py:49-67: arrays as lists of [k] columns.  The variance of the
    error is taken over the whole array. *)
Definition explained_variance_2d (y_pred y_true : list (list Q)) : list Q :=
  let verr := qvar (concat (map2 (map2 Qminus) y_true y_pred)) in
  map (fun col => if Qltb (qvar col) (1 # 10000000000) then 0 else 1 - verr / qvar col)%Q y_true.

(** * A2C *)
(** discount_with_dones, a2c.py:30-44: zip of the reversed lists. *)
Fixpoint dwd_loop (gamma ret : Q) (l : list (Q * bool)) : list Q :=
  match l with
  | [] => []
  | (reward, done) :: r => let ret := (reward + gamma * ret * (1 - b2q done))%Q in ret :: dwd_loop gamma ret r
  end.
Definition discount_with_dones (rewards : list Q) (dones : list bool) (gamma : Q) : list Q :=
  rev (dwd_loop gamma 0 (combine (rev rewards) (rev dones))).
(** A2CRunner._run, a2c.py:400-407: one environment; [dones] are the flags after each step. *)
Definition a2c_env (gamma : Q) (rewards : list Q) (dones : list bool) (value : Q) : option (list Q) :=
  let* d := nth_error dones (length dones - 1) in
  Some (if d then discount_with_dones rewards dones gamma
        else removelast (discount_with_dones (rewards ++ [value]) (dones ++ [false]) gamma)).
(** a2c.py:386-414: mb_rewards of shape [(n_steps, n_envs)], mb_dones with one more row; both are
    swapped to one row per environment; the result is flattened. *)
Definition a2c_returns (gamma : Q) (k : nat) (mb_rewards : list (list Q)) (mb_dones : list (list bool)) (last_values : list Q) : option (list Q) :=
  let rewards := swap_axes 0%Q k mb_rewards in
  let dones := map (@tl bool) (swap_axes false k mb_dones) in
  let* rows := traverse (fun _ x => a2c_env gamma (fst (fst x)) (snd (fst x)) (snd x)) 0 (combine (combine rewards dones) last_values) in
  Some (concat rows).

(** * ACER *)
(** batch_to_seq, tf_util.py:24-39: the batch has [n_envs] consecutive runs of [n_steps] elements;
    the result has one vector over the environments for each step.  None is a shape error. *)
Definition batch_to_seq {A} (d : A) (batch : list A) (n_envs n_steps : nat) : option (list (list A)) :=
  if length batch =? n_envs * n_steps
  then Some (map (fun t => map (fun e => nth (e * n_steps + t) batch d) (seq 0 n_envs)) (seq 0 n_steps))
  else None.
(** seq_to_batch, tf_util.py:42-55. *)
Definition seq_to_batch {A} (d : A) (sq : list (list A)) : list A :=
  match sq with
  | [] => []
  | v :: _ => concat (map (fun e => map (fun row => nth e row d) sq) (seq 0 (length v)))
  end.
(** strip, acer_simple.py:49-60. *)
Definition strip {A} (d : A) (var : list A) (n_envs n_steps : nat) : option (list A) :=
  let* out := batch_to_seq d var n_envs (n_steps + 1) in Some (seq_to_batch d (removelast out)).

(** q_retrace, acer_simple.py:63-92. *)
Definition q_retrace (rewards : list Q) (dones : list bool) (q_i values rho_i : list Q) (n_envs n_steps : nat) (gamma : Q) : option (list Q) :=
  let* rho_bar := batch_to_seq 0%Q (map (qmin2 1) rho_i) n_envs n_steps in
  let* reward_seq := batch_to_seq 0%Q rewards n_envs n_steps in
  let* done_seq := batch_to_seq false dones n_envs n_steps in
  let* q_is := batch_to_seq 0%Q q_i n_envs n_steps in
  let* value_sequence := batch_to_seq 0%Q values n_envs (n_steps + 1) in
  let final_value := nth n_steps value_sequence [] in
  let r := fold_left (fun acc i =>
      let qret := map2 Qplus (nth i reward_seq [])
                    (map2 Qmult (map (Qmult gamma) (snd acc)) (map (fun d => 1 - b2q d)%Q (nth i done_seq []))) in
      (qret :: fst acc, map2 Qplus (map2 Qmult (nth i rho_bar []) (map2 Qminus qret (nth i q_is []))) (nth i value_sequence [])))
    (rev (seq 0 n_steps)) ([], final_value) in
  Some (seq_to_batch 0%Q (fst r)).

(** * Logging of episode rewards *)
(** total_episode_reward_logger, tf_util.py:482-510, one environment: the carried total and what is
    logged (value, step offset within the segment).  [dones_idx] are the positions of the set
    flags. *)
Definition set_positions (masks : list bool) : list nat := filter (fun i => nth i masks false) (seq 0 (length masks)).
Definition qslice (l : list Q) (a b : nat) : list Q := firstn (b - a) (skipn a l).
Fixpoint log_rest (rewards : list Q) (prev : nat) (idx : list nat) : list (Q * nat) :=
  match idx with
  | [] => []
  | i :: r => (qsum (qslice rewards prev i), i) :: log_rest rewards i r
  end.
Definition reward_logger (acc : Q) (rewards : list Q) (masks : list bool) : Q * list (Q * nat) :=
  match set_positions masks with
  | [] => ((acc + qsum rewards)%Q, [])
  | i :: r => (qsum (skipn (last (i :: r) 0) rewards),
               ((acc + qsum (firstn i rewards))%Q, i) :: log_rest rewards i r)
  end.
(** A sequence of calls on consecutive segments (rewards, masks). *)
Fixpoint logger_run (acc : Q) (segs : list (list Q * list bool)) : Q * list Q :=
  match segs with
  | [] => (acc, [])
  | (rw, mk) :: r => let '(acc', out) := reward_logger acc rw mk in
                     let '(acc'', out') := logger_run acc' r in (acc'', map fst out ++ out')
  end.
