(** Model of VecCheckNan (neorl/rl/baselines/shared/vec_env/vec_check_nan.py) and of check_env
    (neorl/rl/baselines/shared/env_checker.py) on environments with array observations.

    A number is a rational, an infinity or nan.  Arrays are flat.  The wrapped environment is arbitrary: three
    functions on its state.  A message is what it names: the values found, and where they come from. *)
From Coq Require Import List Arith ZArith QArith Qabs Bool.
Import ListNotations.
Open Scope nat_scope.

(** A float. *)
Inductive num := Fin (q : Q) | PInf | NInf | NaN.
Definition is_nan (x : num) : bool := match x with NaN => true | _ => false end.
Definition is_inf (x : num) : bool := match x with PInf | NInf => true | _ => false end.

(** The names of the keyword arguments of _check_val (30, 38, 47). *)
Inductive name := Actions | Observations | Rewards | News.
Inductive kind := KInf | KNan.
(** The origin in the message (74-80). *)
Inductive origin := AtReset | FromEnv (action : list num) | FromModel (observations : option (list num)).
Definition message := (list (name * kind) * origin)%type.

(** The attributes set in __init__ (20-27). *)
Record cfg := Cfg { raise_exception : bool; warn_once : bool; check_inf : bool }.
Record wrapper := Wrapper { w_actions : option (list num); w_observations : option (list num); w_warned : bool }.
Definition start : wrapper := Wrapper None None false.

(** Lines 57-64: inf before nan for each argument. *)
Definition found (c : cfg) (args : list (name * list num)) : list (name * kind) :=
  flat_map (fun a => (if check_inf c && existsb is_inf (snd a) then [(fst a, KInf)] else []) ++ (if existsb is_nan (snd a) then [(fst a, KNan)] else [])) args.
(** What a check does: nothing, warn, or raise ValueError. *)
Inductive verdict := Silent | Warns (m : message) | Raises (m : message).
(** _check_val (52-86). *)
Definition check_val (c : cfg) (async_step : bool) (args : list (name * list num)) (w : wrapper) : wrapper * verdict :=
  if negb (raise_exception c) && warn_once c && w_warned w then (w, Silent)
  else match found c args with
       | [] => (w, Silent)
       | f =>
           let from := if async_step then FromModel (w_observations w)
                       else match w_actions w with None => AtReset | Some a => FromEnv a end in
           (Wrapper (w_actions w) (w_observations w) true, if raise_exception c then Raises (f, from) else Warns (f, from))
       end.

(** ** The wrapper around an environment *)
Section Env.
Context {V I : Type}.
(** What step_wait returns: observations, rewards, dones (as numbers), infos. *)
Definition returned := (list num * list num * list num * I)%type.
Variables (v_reset : V -> V * list num) (v_async : V -> list num -> V) (v_wait : V -> V * returned).
Inductive call := CReset | CAsync (actions : list num) | CWait.
Inductive answer := AObs (o : list num) | ANone | AStep (r : returned) | AError (m : message).
(** One call: the new states, the answer and the warning. *)
Definition do_call (c : cfg) (w : wrapper) (v : V) (k : call) : wrapper * V * answer * option message :=
  match k with
  | CAsync acts =>                                                          (* 29-33 *)
      match check_val c true [(Actions, acts)] w with
      | (w', Raises m) => (w', v, AError m, None)
      | (w', d) => (Wrapper (Some acts) (w_observations w') (w_warned w'), v_async v acts, ANone, match d with Warns m => Some m | _ => None end)
      end
  | CWait =>                                                                (* 35-41 *)
      let (v', r) := v_wait v in
      let '(obs, rews, news, _) := r in
      match check_val c false [(Observations, obs); (Rewards, rews); (News, news)] w with
      | (w', Raises m) => (w', v', AError m, None)
      | (w', d) => (Wrapper (w_actions w') (Some obs) (w_warned w'), v', AStep r, match d with Warns m => Some m | _ => None end)
      end
  | CReset =>                                                               (* 43-50 *)
      let (v', obs) := v_reset v in
      match check_val c false [(Observations, obs)] (Wrapper None (w_observations w) (w_warned w)) with
      | (w', Raises m) => (w', v', AError m, None)
      | (w', d) => (Wrapper (w_actions w') (Some obs) (w_warned w'), v', AObs obs, match d with Warns m => Some m | _ => None end)
      end
  end.
(** A history of calls; the caller may catch the exceptions. *)
Fixpoint run (c : cfg) (w : wrapper) (v : V) (ks : list call) : wrapper * V * list (answer * option message) :=
  match ks with
  | [] => (w, v, [])
  | k :: t => let '(w', v', a, m) := do_call c w v k in
              let '(w'', v'', l) := run c w' v' t in (w'', v'', (a, m) :: l)
  end.
End Env.
Arguments returned : clear implicits.
Arguments answer : clear implicits.

(** ** check_env *)
Section Check.
(** An environment: its state, what reset and step give (observation, reward, done).  An action is an array. *)
Context {E : Type}.
Variables (e_reset : E -> E * list num) (e_step : E -> list num -> E * (list num * num * bool)).
(** What is done to the environment, with the answer on the end of the episode. *)
Inductive event := Reset | Step (done : bool).
(** DummyVecEnv with one environment (dummy_vec_env.py:36-50, 59-63): its state holds the environment, the actions
    and what has been done to the environment; it resets when the episode is over. *)
Definition dummy := (E * list num * list event)%type.
Definition one (d : bool) : num := Fin (if d then 1 else 0).
Definition d_reset (s : dummy) : dummy * list num := let '(e, a, l) := s in let (e', o) := e_reset e in ((e', a, l ++ [Reset]), o).
Definition d_async (s : dummy) (acts : list num) : dummy := let '(e, _, l) := s in (e, acts, l).
Definition d_wait (s : dummy) : dummy * returned unit :=
  let '(e, a, l) := s in
  let '(e', (o, r, d)) := e_step e a in
  if d then let (e'', o') := e_reset e' in ((e'', a, l ++ [Step d; Reset]), (o', [r], [one d], tt))
  else ((e', a, l ++ [Step d]), (o, [r], [one d], tt)).
(** _check_nan (env_checker.py:62-67): a step with each action (ten in the code), in the default configuration. *)
Definition check_nan (acts : list (list num)) (s : dummy) : wrapper * dummy * list (answer unit * option message) :=
  run d_reset d_async d_wait (Cfg false true true) start s (flat_map (fun a => [CAsync a; CWait]) acts).
(** check_env (164-217) on an environment of arrays: _check_returned_values (95-125) with the first action,
    then _check_nan with the others; [inside] is observation_space.contains.  What was done to the environment
    and the warnings; [None]: an assertion fails. *)
Definition check_env (inside : list num -> bool) (a0 : list num) (acts : list (list num)) (e : E) : option (list event * list message) :=
  let (e1, o1) := e_reset e in
  if inside o1 then
    let '(e2, (o2, r, d)) := e_step e1 a0 in
    if inside o2 then
      let '(_, s, l) := check_nan acts (e2, [], [Reset; Step d]) in
      Some (snd s, flat_map (fun am => match snd am with Some m => [m] | None => [] end) l)
    else None
  else None.
End Check.
(** The warning on a Box of actions (206-210), from the pairs of bounds. *)
Definition warn_box (bounds : list (Q * Q)) : bool :=
  existsb (fun b => negb (Qeq_bool (Qabs (fst b)) (Qabs (snd b)))) bounds
  || existsb (fun b => negb (Qle_bool (Qabs (fst b)) 1)) bounds || existsb (fun b => negb (Qle_bool (Qabs (snd b)) 1)) bounds.
