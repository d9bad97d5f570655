(** Model of the optimization environment neorl/rl/make_env.py. *)
From Coq Require Import String List Arith ZArith QArith Qround Bool.
From Verif Require Import Base Space_Model Opt_Model.
Import ListNotations.
Open Scope nat_scope.

(** make_env.py 195-210 (accepted methods), by the branch they take: ppo, a2c, acktr, rneat, fneat;
    acer, dqn; neat. *)
Inductive rlmethod : Type := MAll | MOne | MNeat.

(** make_env.py 170-190: the gym spaces Box(-1,1), MultiDiscrete with its decoding table
    (int_bounds_map, one list of values per variable), Discrete with discrete_map. *)
Inductive aspace : Type := ABox | AMulti (maps : list (list Z)) | ADiscrete (values : list Z).

(** An action of one of these spaces. *)
Inductive action : Type := ActBox (a : list Q) | ActMulti (ix : list nat) | ActOne (i : nat).

(** What reset returns: a sample of the action space or of the observation space. *)
Inductive first_obs : Type := ObsAction (a : action) | ObsState (s : list Q).

Record econf : Type := EConf { ec_space : space; ec_meth : rlmethod; ec_mode : mode; ec_len : nat }.

(** The mutable attributes full_action, index, done, counter; [n_t] counts random draws (ghost). *)
Record estate : Type := EState { n_full : list Q; n_index : nat; n_done : bool; n_counter : nat; n_t : nat }.

(** The result of step: state, reward, done, info['x']. *)
Record eresult : Type := EResult { r_state : list Q; r_reward : Q; r_done : bool; r_x : list val }.

Inductive eop : Type := OStep (a : action) | OReset.

(** make_env.py 146-157: is there a grid variable? *)
Definition is_grid (p : param) : bool := match p with PGrid _ => true | _ => false end.
Definition grid_flag (b : space) : bool := existsb (fun kp => is_grid (snd kp)) b.

(** make_env.py 151-161: types, lower and upper bounds after grid variables became integers. *)
Definition env_dim (p : param) : dimn :=
  match encode_param p with
  | PInt lo hi => Dim true lo hi
  | PFloat lo hi => Dim false lo hi
  | PGrid _ => Dim true 0 0
  end.
Definition env_dims (b : space) : list dimn := map (fun kp => env_dim (snd kp)) b.

(** make_env.py 81, 98, 104: list(range(lo, hi+1)); TypeError unless both are integers. *)
Definition int_of (q : Q) : option Z := if Qeq_bool q (inject_Z (Qfloor q)) then Some (Qfloor q) else None.
Definition values (d : dimn) : option (list Z) :=
  match int_of (d_lo d), int_of (d_hi d) with
  | Some lo, Some hi => Some (zrange lo (hi + 1))
  | _, _ => None
  end.

(** make_env.py 43-56 with lb_norm=-1, ub_norm=1, one coordinate. *)
Definition action_map1 (d : dimn) (a : Q) : Q := ((a - (-1)) * (d_hi d - d_lo d) / (1 - (-1)) + d_lo d)%Q.
(** make_env.py 43-56; numpy raises when the lengths differ (a vector of length one would be
    broadcast: not modelled). *)
Definition action_map (ds : list dimn) (a : list Q) : option (list Q) :=
  if length a =? length ds then Some (map2 action_map1 ds a) else None.

(** make_env.py 58-69. *)
Definition env_discrete (ds : list dimn) (v : list Q) : list Q :=
  map2 (fun d x => if d_int d then inject_Z (trunc x) else x) ds v.

(** make_env.py 110-122: zip, then table lookup (KeyError). *)
Definition multi_actions (maps : list (list Z)) (ix : list nat) : option (list Q) :=
  traverse (fun _ p => option_map inject_Z (nth_error (snd p) (fst p))) 0 (combine ix maps).

(** make_env.py 251-257, 275-283: decode if there are grid variables. *)
Definition env_decode (b : space) (v : list Q) : option (list val) :=
  if grid_flag b then decode_discrete_to_grid (map VNum v) b (snd (encode_grid_to_discrete b)) else Some (map VNum v).

Section Env.
(** the fitness; the order in which a Python set is listed; the samples of the action and
    observation spaces; random.randint. *)
Context (fit : list val -> Q) (set_order : list Z -> list Z)
  (act_sample : nat -> action) (obs_sample : nat -> list Q) (randint : nat -> Z -> Z -> Z) (c : econf).

(** make_env.py 170-190 with 72-108.  neat passes the method test but no branch: reset then
    raises UnboundLocalError. *)
Definition env_aspace : option aspace :=
  let ds := env_dims (ec_space c) in
  match ec_meth c, forallb d_int ds with
  | MAll, true => option_map AMulti (traverse (fun _ d => values d) 0 ds)
  | MAll, false => Some ABox
  | MOne, true => option_map (fun ls => ADiscrete (set_order (concat ls))) (traverse (fun _ d => values d) 0 ds)
  | MOne, false => None
  | MNeat, _ => None
  end.

(** make_env.py 215-224: clears done only; the counter and the index are kept. *)
Definition env_reset (st : estate) : option (first_obs * estate) :=
  match ec_meth c with
  | MAll => Some (ObsAction (act_sample (n_t st)), EState (n_full st) (n_index st) false (n_counter st) (S (n_t st)))
  | MOne => Some (ObsState (obs_sample (n_t st)), EState (obs_sample (n_t st)) (n_index st) false (n_counter st) (S (n_t st)))
  | MNeat => None
  end.

(** make_env.py 137-199: the constructor; it ends with a reset and zero counters. *)
Definition env_new : option (aspace * estate) :=
  let* sp := env_aspace in
  let* r := env_reset (EState [] 0 false 0 0) in
  Some (sp, EState (n_full (snd r)) 0 false 0 (n_t (snd r))).

(** make_env.py 229-249: methods whose action is a whole individual, up to the bounds check. *)
Definition whole_action (sp : aspace) (a : action) : option (list Q) :=
  let ds := env_dims (ec_space c) in
  let* v := match sp, a with
            | ABox, ActBox v => action_map ds v
            | AMulti maps, ActMulti ix => multi_actions maps ix
            | _, _ => None
            end in
  if length v =? length ds then Some (clip_vec (map (fun d => (d_lo d, d_hi d)) ds) (env_discrete ds v)) else None.

(** make_env.py 266-275: methods whose action is one coordinate. *)
Definition one_action (vals : list Z) (i : nat) (st : estate) : option estate :=
  let ds := env_dims (ec_space c) in
  if n_index st <? length ds then
    let* z := nth_error vals i in
    let* d := nth_error ds (n_index st) in
    let v := if (Qle_bool (d_lo d) (inject_Z z) && Qle_bool (inject_Z z) (d_hi d))%bool then z
             else randint (n_t st) (Qfloor (d_lo d)) (Qfloor (d_hi d)) in
    Some (EState (set_nth (n_full st) (n_index st) (inject_Z v)) (S (n_index st)) (n_done st) (n_counter st) (S (n_t st)))
  else Some (EState (obs_sample (n_t st)) 0 (n_done st) (n_counter st) (S (n_t st))).

(** make_env.py 229-288: action_mapper, returning the encoded individual. *)
Definition env_map (sp : aspace) (a : action) (st : estate) : option (list Q * estate) :=
  match ec_meth c, sp, a with
  | MAll, _, _ => let* v := whole_action sp a in Some (v, st)
  | MOne, ADiscrete vals, ActOne i => let* st' := one_action vals i st in Some (n_full st', st')
  | _, _, _ => None
  end.

(** make_env.py 205-213 and 251-288; in min mode the fitness is negated (33-41, 191-197). *)
Definition env_step (sp : aspace) (st : estate) (a : action) : option (eresult * estate) :=
  let* m := env_map sp a st in
  let* x := env_decode (ec_space c) (fst m) in
  let st1 := snd m in
  let k := S (n_counter st1) in
  let st2 := if k =? ec_len c then EState (n_full st1) (n_index st1) true 0 (n_t st1)
             else EState (n_full st1) (n_index st1) (n_done st1) k (n_t st1) in
  Some (EResult (fst m) (as_max (ec_mode c) (fit x)) (n_done st2) x, st2).

(** A user (or a learning algorithm) calls step and reset. *)
Definition env_op (sp : aspace) (st : estate) (o : eop) : option estate :=
  match o with
  | OStep a => option_map snd (env_step sp st a)
  | OReset => option_map snd (env_reset st)
  end.
End Env.
