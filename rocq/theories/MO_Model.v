(** Model of the Monitor wrapper and its logs (neorl/rl/baselines/shared/monitor.py) and of
    evaluate_policy (neorl/rl/baselines/shared/evaluation.py).

    The wrapped environment is an arbitrary state machine: [ereset], [enext] what a reset and a step
    do, [obs_of], [rew], [done_of], [info_of] what they return.  Numbers are exact rationals; the n-th
    reading of the clock is an arbitrary [time n].  A call that raises leaves a state behind, and the
    user may go on calling: a session is any list of calls. *)
From Coq Require Import List Arith ZArith QArith Qround Bool Ascii String.
From Verif Require Import Base Swarm_Model.
Import ListNotations.
Open Scope nat_scope.

(** Keys of the dictionary of an episode: "r", "l", "t", and the keywords of the user. *)
Inductive key : Type := KR | KL | KT | KUser (n : nat).
Definition key_eqb (a b : key) : bool :=
  match a, b with KR, KR | KL, KL | KT, KT => true | KUser n, KUser m => n =? m | _, _ => false end.
(** Values in it. *)
Inductive cell (V : Type) : Type := Num (q : Q) | Count (n : nat) | Other (v : V).
Arguments Num {V}. Arguments Count {V}. Arguments Other {V}.

(** Python dictionaries: [d[k]] and [d[k] = v] (an old key keeps its place). *)
Definition dict (X : Type) : Type := list (key * X).
Fixpoint dget {X} (d : dict X) (k : key) : option X :=
  match d with [] => None | (k', v) :: r => if key_eqb k k' then Some v else dget r k end.
Fixpoint dset {X} (d : dict X) (k : key) (v : X) : dict X :=
  match d with [] => [(k, v)] | (k', w) :: r => if key_eqb k k' then (k', v) :: r else (k', w) :: dset r k v end.

(** round(x, 6). *)
Definition round6 (x : Q) : Q := (inject_Z (py_round (x * 1000000)) / 1000000)%Q.

(** What a call gives: an observation, the result of a step (with info['episode'] if it is set), or an
    exception. *)
Inductive failure : Type := Early | NeedsReset | NoKeyword (k : key) | NoInfo (k : key).
Inductive result (O I V : Type) : Type :=
| RObs (o : O)
| RStep (o : O) (r : Q) (done : bool) (info : I) (ep : option (dict (cell V)))
| RError (f : failure).
Arguments RObs {O I V}. Arguments RStep {O I V}. Arguments RError {O I V}.

(** A call: reset with keyword arguments ([None]: not passed, or None), or step. *)
Inductive call (A V : Type) : Type := CReset (kw : key -> option V) | CStep (a : A).
Arguments CReset {A V}. Arguments CStep {A V}.

Section Monitor.
Context {S A O V : Type} (ereset : S -> (key -> option V) -> S) (enext : S -> A -> S) (obs_of : S -> O)
        (rew : S -> A -> Q) (done_of : S -> A -> bool) (info_of : S -> A -> key -> option V) (time : nat -> Q)
        (early : bool) (rkw ikw : list key).

(** Attributes env, rewards, needs_reset, episode_rewards, episode_lengths, episode_times, total_steps,
    current_reset_info; the rows in the log file; the clock readings so far.  (rewards is None before the
    first reset, when it is not read.) *)
Record mon : Type := Mon {
  m_env : S; m_rews : list Q; m_needs : bool; m_er : list Q; m_el : list nat; m_et : list Q; m_total : nat;
  m_cur : dict (cell V); m_rows : list (dict (cell V)); m_clock : nat }.

(** monitor.py:28-62 __init__; time.time() is read for t_start. *)
Definition new_mon (s : S) : mon := Mon s [] true [] [] [] 0 [] [] 1.

(** monitor.py:76-80: the loop over the reset keywords. *)
Fixpoint take_keywords (ks : list key) (kw : key -> option V) (cur : dict (cell V)) : dict (cell V) * option key :=
  match ks with
  | [] => (cur, None)
  | k :: r => match kw k with None => (cur, Some k) | Some v => take_keywords r kw (dset cur k (Other v)) end
  end.
(** monitor.py:64-81 reset. *)
Definition mon_reset (kw : key -> option V) (m : mon) : mon * result O (key -> option V) V :=
  if negb early && negb (m_needs m) then (m, RError Early)
  else
    let '(cur, missing) := take_keywords rkw kw (m_cur m) in
    let m' := Mon (m_env m) [] false (m_er m) (m_el m) (m_et m) (m_total m) cur (m_rows m) (m_clock m) in
    match missing with
    | Some k => (m', RError (NoKeyword k))
    | None =>
        let s' := ereset (m_env m) kw in
        (Mon s' [] false (m_er m) (m_el m) (m_et m) (m_total m) cur (m_rows m) (m_clock m), RObs (obs_of s'))
    end.

(** monitor.py:99-100: the loop over the info keywords. *)
Fixpoint take_infos (ks : list key) (info : key -> option V) (d : dict (cell V)) : dict (cell V) + key :=
  match ks with
  | [] => inl d
  | k :: r => match info k with None => inr k | Some v => take_infos r info (dset d k (Other v)) end
  end.
(** ep_info.update(self.current_reset_info). *)
Definition dupdate {X} (d e : dict X) : dict X := fold_left (fun d kv => dset d (fst kv) (snd kv)) e d.

(** monitor.py:83-110 step. *)
Definition mon_step (a : A) (m : mon) : mon * result O (key -> option V) V :=
  if m_needs m then (m, RError NeedsReset)
  else
    let s := m_env m in
    let s' := enext s a in
    let r := rew s a in
    let rs := m_rews m ++ [r] in
    if done_of s a then
      let total := fold_left Qplus rs 0%Q in
      let t1 := (time (m_clock m) - time 0)%Q in
      let d0 := [(KR, Num (round6 total)); (KL, Count (List.length rs)); (KT, Num (round6 t1))] in
      match take_infos ikw (info_of s a) d0 with
      | inr k => (Mon s' rs true (m_er m) (m_el m) (m_et m) (m_total m) (m_cur m) (m_rows m) (1 + m_clock m), RError (NoInfo k))
      | inl d1 =>
          let t2 := (time (1 + m_clock m) - time 0)%Q in
          let row := dupdate d1 (m_cur m) in
          (Mon s' rs true (m_er m ++ [total]) (m_el m ++ [List.length rs]) (m_et m ++ [t2]) (1 + m_total m) (m_cur m)
               (m_rows m ++ [row]) (2 + m_clock m),
           RStep (obs_of s') r true (info_of s a) (Some row))
      end
    else (Mon s' rs false (m_er m) (m_el m) (m_et m) (1 + m_total m) (m_cur m) (m_rows m) (m_clock m),
          RStep (obs_of s') r false (info_of s a) None).

Definition mon_call (c : call A V) (m : mon) : mon * result O (key -> option V) V :=
  match c with CReset kw => mon_reset kw m | CStep a => mon_step a m end.
(** A session: the calls in order, whether they raise or not. *)
Fixpoint session (cs : list (call A V)) (m : mon) : mon * list (result O (key -> option V) V) :=
  match cs with
  | [] => (m, [])
  | c :: r => let '(m1, x) := mon_call c m in let '(m2, xs) := session r m1 in (m2, x :: xs)
  end.

(** The same calls made on the environment itself. *)
Fixpoint bare (cs : list (call A V)) (s : S) : S * list (result O (key -> option V) V) :=
  match cs with
  | [] => (s, [])
  | CReset kw :: r => let s' := ereset s kw in let '(s2, xs) := bare r s' in (s2, RObs (obs_of s') :: xs)
  | CStep a :: r =>
      let s' := enext s a in let '(s2, xs) := bare r s' in (s2, RStep (obs_of s') (rew s a) (done_of s a) (info_of s a) None :: xs)
  end.
End Monitor.

(* ---------- log files ---------- *)
(** monitor.py:26, 39-44: the name of the log file; [isdir]: the argument is a directory. *)
Definition EXT : string := "monitor.csv".
Definition ends_with (e s : string) : bool :=
  (String.length e <=? String.length s) && String.eqb (substring (String.length s - String.length e) (String.length e) s) e.
Definition log_name (isdir : bool) (f : string) : string :=
  if ends_with EXT f then f else if isdir then (f ++ "/" ++ EXT)%string else (f ++ "." ++ EXT)%string.

(** monitor.py:166-208 load_results.  A log: t_start and the rows, each with its "t" and the rest.  None: no
    file.  [data_frame.sort_values('t')] leaves the order of equal times open; here it is stable. *)
Section Load.
Context {X : Type}.
Fixpoint insert_row (a : Q * X) (l : list (Q * X)) : list (Q * X) :=
  match l with [] => [a] | b :: r => if Qle_bool (fst a) (fst b) then a :: l else b :: insert_row a r end.
Fixpoint sort_rows (l : list (Q * X)) : list (Q * X) := match l with [] => [] | a :: r => insert_row a (sort_rows r) end.
Definition qmin (a b : Q) : Q := if Qle_bool a b then a else b.
Definition load_results (logs : list (Q * list (Q * X))) : option (list (Q * X)) :=
  match logs with
  | [] => None
  | l0 :: r =>
      let rows := flat_map (fun l => map (fun tx => (fst tx + fst l, snd tx)%Q) (snd l)) logs in
      let start := fold_left (fun m l => qmin m (fst l)) r (fst l0) in
      Some (map (fun tx => (fst tx - start, snd tx)%Q) (sort_rows rows))
  end.
End Load.

(* ---------- evaluate_policy ---------- *)
Section Evaluate.
(** Any environment object: a bare environment, a Monitor, a VecEnv with one environment. *)
Context {M A O P : Type} (mreset : M -> M * option O) (mstep : A -> M -> M * option (O * Q * bool))
        (predict : nat -> O -> option P -> A * option P).

(** evaluation.py:41-51: the loop of one episode.  Result: object, queries, reward, length. *)
Fixpoint eval_loop (fuel : nat) (m : M) (q : nat) (o : O) (st : option P) (r : Q) (n : nat) : outcome (M * nat * Q * nat) :=
  match fuel with
  | 0 => Fuel
  | Datatypes.S fuel' =>
      let '(a, st') := predict q o st in
      match mstep a m with
      | (_, None) => Raise
      | (m', Some (o', rw, done)) =>
          if done then Done (m', 1 + q, (r + rw)%Q, 1 + n) else eval_loop fuel' m' (1 + q) o' st' (r + rw)%Q (1 + n)
      end
  end.
(** evaluation.py:35-53: [k] episodes. *)
Fixpoint eval_episodes (fuel k : nat) (m : M) (q : nat) : outcome (M * nat * list (Q * nat)) :=
  match k with
  | 0 => Done (m, q, [])
  | Datatypes.S k' =>
      match mreset m with
      | (_, None) => Raise
      | (m1, Some o) =>
          obind (eval_loop fuel m1 q o None 0 0) (fun z => let '(m2, q2, r, n) := z in
          obind (eval_episodes fuel k' m2 q2) (fun y => let '(m3, q3, l) := y in Done (m3, q3, (r, n) :: l)))
      end
  end.
(** np.mean; None: the mean of no number (nan). *)
Definition mean (l : list Q) : option Q :=
  match l with [] => None | _ => Some (fold_left Qplus l 0 / inject_Z (Z.of_nat (List.length l)))%Q end.
(** evaluation.py:6-64 evaluate_policy: the mean, the rewards and the lengths.  The assertion compares with >;
    no comparison with nan holds.  The standard deviation is left out, and so are callback and render. *)
Definition evaluate (fuel k : nat) (threshold : option Q) (m : M) (q : nat) : outcome (M * nat * option Q * list (Q * nat)) :=
  obind (eval_episodes fuel k m q) (fun y => let '(m', q', l) := y in
  let mu := mean (map fst l) in
  if match threshold, mu with None, _ => true | Some t, Some x => Qltb t x | Some _, None => false end
  then Done (m', q', mu, l) else Raise).
End Evaluate.

(** The three kinds of objects: the environment itself, a Monitor, and a DummyVecEnv with one Monitor, which
    resets after a step that ends an episode (vec_env/dummy_vec_env.py:41-54).  No keywords are passed. *)
Section Objects.
Context {S A O V : Type} (ereset : S -> (key -> option V) -> S) (enext : S -> A -> S) (obs_of : S -> O)
        (rew : S -> A -> Q) (done_of : S -> A -> bool) (info_of : S -> A -> key -> option V) (time : nat -> Q)
        (early : bool) (rkw ikw : list key).
Definition env_reset (s : S) : S * option O := let s' := ereset s (fun _ => None) in (s', Some (obs_of s')).
Definition env_step (a : A) (s : S) : S * option (O * Q * bool) :=
  let s' := enext s a in (s', Some (obs_of s', rew s a, done_of s a)).
Definition obj_reset (m : mon) : mon * option O :=
  match mon_reset ereset obs_of early rkw (fun _ => None) m with (m', RObs o) => (m', Some o) | (m', _) => (m', None) end.
Definition obj_step (a : A) (m : mon) : mon * option (O * Q * bool) :=
  match mon_step enext obs_of rew done_of info_of time ikw a m with (m', RStep o r d _ _) => (m', Some (o, r, d)) | (m', _) => (m', None) end.
Definition vec_step (a : A) (m : mon) : mon * option (O * Q * bool) :=
  match obj_step a m with
  | (m', Some (o, r, true)) => match obj_reset m' with (m2, Some o2) => (m2, Some (o2, r, true)) | (m2, None) => (m2, None) end
  | z => z
  end.
End Objects.
