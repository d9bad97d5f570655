(** Model of the training loops of A2C and ACKTR (neorl/rl/baselines/a2c/a2c.py, acktr/acktr.py),
    PPO2 (ppo2/ppo2.py) and ACER (acer/acer_simple.py with acer/buffer.py), of their runners
    (shared/runners.py) and of what they do with callbacks.

    The (vectorised) environment is an arbitrary state machine: [enext] and [rew] are what a step
    does and returns, [obs_of] and [dones_of] the observations and done flags that the last step (or
    the first reset) returned.  The policy is an arbitrary function of the number of queries made so
    far (its parameters change), the observations and the flags; [clip] is the clipping of Box
    actions.  What a training step computes from its rows is the subject of Ret_Model; here it is
    only recorded which rows, indices and learning rate it gets.  Callbacks are those of CB_Model.
    Logging, tensorboard, values, probabilities and the states of recurrent policies are not
    modelled; an exception is [None]. *)
From Coq Require Import List Arith ZArith QArith Bool.
From Verif Require Import Base Opt_Model Sched_Model CB_Model.
Import ListNotations.
Open Scope nat_scope.

(** One time step of a rollout: mb_obs, mb_dones (flags before the step), mb_actions, mb_rewards. *)
Record row (O A : Type) : Type := Row { w_obs : O; w_dones : list bool; w_act : A; w_rew : list Q }.
Arguments Row {O A}. Arguments w_obs {O A}. Arguments w_dones {O A}. Arguments w_act {O A}. Arguments w_rew {O A}.

(** Attributes env, obs, dones of the runner; the number of policy queries. *)
Record runner (S O : Type) : Type := Runner { r_env : S; r_obs : O; r_dones : list bool; r_q : nat }.
Arguments Runner {S O}. Arguments r_env {S O}. Arguments r_obs {S O}. Arguments r_dones {S O}. Arguments r_q {S O}.

(** One update: num_timesteps, learning rate, the rollout, the observations and flags after it, and
    for PPO2 the indices of the minibatches, epoch by epoch. *)
Record training (O A : Type) : Type := Training {
  t_nt : nat; t_lr : Q; t_rows : list (row O A); t_last : O * list bool; t_epochs : list (list (list nat)) }.
Arguments Training {O A}. Arguments t_nt {O A}. Arguments t_lr {O A}. Arguments t_rows {O A}. Arguments t_last {O A}. Arguments t_epochs {O A}.

(** What happens during learn: a step of the environment, an event of a callback, an update, and
    for ACER an update from the replay memory: num_timesteps, learning rate and, for each
    environment, the stored rollout whose part for that environment is used. *)
Inductive item (S O A : Type) : Type :=
| IEnv (s : S) (a : A)
| IEv (e : event)
| ITrain (t : training O A)
| IReplay (nt : nat) (lr : Q) (data : list (list (row O A) * (O * list bool))).
Arguments IEnv {S O A}. Arguments IEv {S O A}. Arguments ITrain {S O A}. Arguments IReplay {S O A}.

Section Learn.
  Context {S O A : Type} (enext : S -> A -> S) (rew : S -> A -> list Q) (obs_of : S -> O) (dones_of : S -> list bool)
          (act : nat -> O -> list bool -> A) (clip : A -> A)
          (ans : nat -> nat -> answer) (ev : nat -> nat -> Q).

  Definition signals (s : signal) (c : cb) : list (item S O A) := map IEv (notify s c).

  (** a2c.py:347-381, acer_simple.py:718-748, ppo2.py:465-493: the loop over n_steps of [_run].
      PPO2 ([early] = true) stores the new observations and flags before it asks the callback, A2C
      and ACER afterwards.  Last component: the rows, or [None] if the callback stopped the run
      (dummy values). *)
  Fixpoint rollout (early : bool) (e n : nat) (rs : runner S O) (c : cb) (nt : nat)
    : option (runner S O * cb * nat * list (item S O A) * option (list (row O A))) :=
    match n with
    | 0 => Some (rs, c, nt, [], Some [])
    | Datatypes.S n' =>
        let a := act (r_q rs) (r_obs rs) (r_dones rs) in
        let s' := enext (r_env rs) (clip a) in
        let w := Row (r_obs rs) (r_dones rs) a (rew (r_env rs) (clip a)) in
        let fresh := Runner s' (obs_of s') (dones_of s') (1 + r_q rs) in
        let stale := Runner s' (r_obs rs) (r_dones rs) (1 + r_q rs) in
        let nt' := nt + e in
        let* p := on_step ans ev None nt' c in let '(c', evs, an) := p in
        let its := IEnv (r_env rs) (clip a) :: map IEv evs in
        match an with
        | Stop => Some (if early then fresh else stale, c', nt', its, None)
        | _ =>
            let* q := rollout early e n' fresh c' nt' in let '(rs'', c'', nt'', its', rows) := q in
            Some (rs'', c'', nt'', its ++ its', match rows with Some l => Some (w :: l) | None => None end)
        end
    end.

  (** a2c.py:219-222, acktr.py:250-251: the schedule is advanced once per sample. *)
  Fixpoint lr_steps (k : nat) (sch : scheduler) : option (scheduler * Q) :=
    match k with
    | 0 => None
    | 1 => sched_value sch
    | Datatypes.S k' => let* p := sched_value sch in lr_steps k' (fst p)
    end.

  (** a2c.py:266-287, acktr.py:328-354: [k] updates. *)
  Fixpoint a2c_updates (k e n : nat) (rs : runner S O) (c : cb) (nt : nat) (sch : scheduler)
    : option (runner S O * cb * nat * list (item S O A)) :=
    match k with
    | 0 => Some (rs, c, nt, [])
    | Datatypes.S k' =>
        let* p := rollout false e n rs c nt in let '(rs', c', nt', its, rows) := p in
        let pre := signals RolloutStart c ++ its ++ signals RolloutEnd c' in
        match rows with
        | None => Some (rs', c', nt', pre)
        | Some l =>
            let* q := lr_steps (e * n) sch in let '(sch', lr) := q in
            let* z := a2c_updates k' e n rs' c' nt' sch' in let '(rs'', c'', nt'', its') := z in
            Some (rs'', c'', nt'', pre ++ ITrain (Training nt' lr l (r_obs rs', r_dones rs') []) :: its')
        end
    end.

  (** base_class.py:173-177; a2c.py:250-310, acktr.py:285-378 [learn]: total_timesteps // n_batch
      updates.  [e]: number of environments, [n]: n_steps. *)
  Definition a2c_learn (lr0 : Q) (curve : Q -> Q) (e n total : nat) (reset : bool) (rs : runner S O) (c : cb) (nt : nat)
    : option (runner S O * cb * nat * list (item S O A)) :=
    if e * n =? 0 then None
    else
      let nt0 := if reset then 0 else nt in
      let* z := a2c_updates (total / (e * n)) e n rs c nt0 (new_scheduler lr0 total curve) in
      let '(rs', c', nt', its) := z in
      Some (rs', c', nt', signals TrainingStart c ++ its ++ signals TrainingEnd c').

  (* ---------- PPO2 ---------- *)

  (** range(0, len, b) and the slices [start:start+b]. *)
  Definition slices (b : nat) (l : list nat) : list (list nat) :=
    map (fun i => firstn b (skipn (i * b) l)) (seq 0 ((length l + b - 1) / b)).

  Context (sh : nat -> list nat -> list nat).

  (** ppo2.py:344-356: epochs over all samples; the index array is shuffled in place. *)
  Fixpoint flat_epochs (k b : nat) (inds : list nat) (calls : nat) : list (list (list nat)) :=
    match k with
    | 0 => []
    | Datatypes.S k' => let inds' := sh calls inds in slices b inds' :: flat_epochs k' b inds' (1 + calls)
    end.
  (** ppo2.py:357-375: recurrent policies: epochs over environments, each with its whole rollout
      (row i of flat_indices is i*n_steps, ..., i*n_steps + n_steps - 1). *)
  Fixpoint env_epochs (k b n : nat) (envs : list nat) (calls : nat) : list (list (list nat)) :=
    match k with
    | 0 => []
    | Datatypes.S k' =>
        let envs' := sh calls envs in
        map (flat_map (fun i => seq (i * n) n)) (slices b envs') :: env_epochs k' b n envs' (1 + calls)
    end.

  (** ppo2.py:315-375: updates number [u], ..., [u] + [k] - 1 of [nup].  [calls]: shuffles so far. *)
  Fixpoint ppo_updates (recurrent : bool) (mb epochs : nat) (lrf : Q -> Q) (nup : nat) (u k e n : nat)
           (rs : runner S O) (c : cb) (nt calls : nat) : option (runner S O * cb * nat * list (item S O A)) :=
    match k with
    | 0 => Some (rs, c, nt, [])
    | Datatypes.S k' =>
        if mb =? 0 then None
        else if negb ((e * n) mod mb =? 0) then None
        else
          let frac := (1 - (inject_Z (Z.of_nat u) - 1) / inject_Z (Z.of_nat nup))%Q in
          let* p := rollout true e n rs c nt in let '(rs', c', nt', its, rows) := p in
          let pre := signals RolloutStart c ++ its ++ signals RolloutEnd c' in
          match rows with
          | None => Some (rs', c', nt', pre)
          | Some l =>
              let b := (e * n) / mb in
              let* eps := (if recurrent
                           then if negb (e mod mb =? 0) then None else Some (env_epochs epochs (b / n) n (seq 0 e) calls)
                           else Some (flat_epochs epochs b (seq 0 (e * n)) calls)) in
              let* z := ppo_updates recurrent mb epochs lrf nup (1 + u) k' e n rs' c' nt' (calls + epochs) in
              let '(rs'', c'', nt'', its') := z in
              Some (rs'', c'', nt'', pre ++ ITrain (Training nt' (lrf frac) l (r_obs rs', r_dones rs') eps) :: its')
          end
    end.

  (** ppo2.py:297-402 [learn]. *)
  Definition ppo_learn (recurrent : bool) (mb epochs : nat) (lrf : Q -> Q) (e n total : nat) (reset : bool)
             (rs : runner S O) (c : cb) (nt calls : nat) : option (runner S O * cb * nat * list (item S O A)) :=
    if e * n =? 0 then None
    else
      let nt0 := if reset then 0 else nt in
      let nup := total / (e * n) in
      let* z := ppo_updates recurrent mb epochs lrf nup 1 nup e n rs c nt0 calls in let '(rs', c', nt', its) := z in
      Some (rs', c', nt', signals TrainingStart c ++ its ++ signals TrainingEnd c').

  (* ---------- ACER ---------- *)

  (** acer/buffer.py:5-40: the ring of rollouts, each with the observations and flags after it.
      [b_mem]: the cells written so far. *)
  Definition cell : Type := (list (row O A) * (O * list bool))%type.
  Record buffer : Type := Buffer { b_size : nat; b_mem : list cell; b_next : nat }.
  Definition new_buffer (size n : nat) : option buffer := if n =? 0 then None else Some (Buffer (size / n) [] 0).
  (** buffer.py:86-115 put; an empty array (size 0) raises IndexError. *)
  Definition put (b : buffer) (l : cell) : option buffer :=
    if b_size b =? 0 then None
    else Some (Buffer (b_size b) (if b_next b <? length (b_mem b) then set_nth (b_mem b) (b_next b) l else b_mem b ++ [l])
                      ((b_next b + 1) mod b_size b)).
  (** buffer.py:42-51 has_atleast; num_in_buffer is the number of cells written. *)
  Definition has_atleast (b : buffer) (frames n : nat) : bool := frames / n <=? length (b_mem b).
  (** buffer.py:117-162 take, get, with [idx] the indices drawn, one per environment: the rollouts
      the data of each environment are taken from (all arrays with the same indices). *)
  Definition get (b : buffer) (idx : list nat) : option (list cell) :=
    traverse (fun _ i => nth_error (b_mem b) i) 0 idx.

  (** [draws u i env]: the index drawn for [env] in replay [i] of update [u]; np.random.randint(0,
      num_in_buffer) is reduced modulo num_in_buffer.  [pois u]: the Poisson draw. *)
  Context (pois : nat -> nat) (draws : nat -> nat -> nat -> nat).
  Definition replay1 (sch : scheduler) (b : buffer) (e nt u i : nat) : option (item S O A) :=
    let* data := get b (map (fun v => draws u i v mod length (b_mem b)) (seq 0 e)) in
    let* lr := value_steps sch nt in
    Some (IReplay nt lr data).

  (** acer_simple.py:569-635: [k] iterations of the loop, the first with number [u]. *)
  Fixpoint acer_updates (start u k e n : nat) (rs : runner S O) (c : cb) (nt : nat) (sch : scheduler) (buf : option buffer)
    : option (runner S O * cb * nat * list (item S O A)) :=
    match k with
    | 0 => Some (rs, c, nt, [])
    | Datatypes.S k' =>
        let* p := rollout false e n rs c nt in let '(rs', c', nt', its, rows) := p in
        let pre := signals RolloutStart c ++ its ++ signals RolloutEnd c' in
        match rows with
        | None => Some (rs', c', nt', pre)
        | Some l =>
            let* buf' := match buf with None => Some None | Some b => let* b' := put b (l, (r_obs rs', r_dones rs')) in Some (Some b') end in
            let* lr := value_steps sch nt' in
            let* rep := match buf' with
                        | None => Some []
                        | Some b => if has_atleast b start n then traverse (fun _ i => replay1 sch b e nt' u i) 0 (seq 0 (pois u)) else Some []
                        end in
            let* z := acer_updates start (1 + u) k' e n rs' c' nt' sch buf' in let '(rs'', c'', nt'', its') := z in
            Some (rs'', c'', nt'', pre ++ ITrain (Training nt' lr l (r_obs rs', r_dones rs') []) :: rep ++ its')
        end
    end.

  (** acer_simple.py:542-638 [learn]; range(0, total_timesteps, n_batch) iterations.  [ratio]:
      replay_ratio > 0. *)
  Definition acer_learn (lr0 : Q) (curve : Q -> Q) (ratio : bool) (size start : nat) (e n total : nat) (reset : bool)
             (rs : runner S O) (c : cb) (nt : nat) : option (runner S O * cb * nat * list (item S O A)) :=
    if e * n =? 0 then None
    else
      let nt0 := if reset then 0 else nt in
      let* buf := if ratio then let* b := new_buffer size n in Some (Some b) else Some None in
      let* z := acer_updates start 0 ((total + e * n - 1) / (e * n)) e n rs c nt0 (new_scheduler lr0 total curve) buf in
      let '(rs', c', nt', its) := z in
      Some (rs', c', nt', signals TrainingStart c ++ its ++ signals TrainingEnd c').
End Learn.
