(** Model of saving and loading (neorl/rl/baselines/shared/save_util.py, shared/base_class.py:43-164, 437-501,
    532-689, 797-799, 913-951, 1028-1059, and the save methods of deepq/dqn.py:367-398, a2c/a2c.py:307-331,
    ppo2/ppo2.py:408-434, acer/acer_simple.py:640-666, acktr/acktr.py:385-411).

    An exception is [None].  A JSON text is the tree it is the text of: json.loads of json.dumps of a tree gives
    the tree back. *)
From Coq Require Import Ascii String List Arith ZArith Bool.
Import ListNotations.
Open Scope string_scope.

(** ** Values *)
(** Keys of dictionaries: texts, whole numbers, floats, booleans, None, and everything json refuses as a key. *)
Inductive key := KStr (s : string) | KInt (z : Z) | KFloat (f : Z) | KBool (b : bool) | KNone | KOther (id : Z).
(** Python values.  A float is named by a number; an object that json refuses is named by a number and may have
    attributes, its __dict__.  Values that contain themselves are not modelled. *)
Inductive py := PNone | PBool (b : bool) | PInt (z : Z) | PFloat (f : Z) | PStr (s : string) | PList (l : list py) | PTuple (l : list py)
  | PDict (l : list (key * py)) | PObj (id : Z) (attrs : option (list (string * py))).
(** JSON trees. *)
Inductive jv := JNull | JBool (b : bool) | JInt (z : Z) | JFloat (f : Z) | JStr (s : string) | JArr (l : list jv) | JObj (l : list (string * jv)).

(** An assignment d[k] = v to a dictionary: an old key keeps its place. *)
Fixpoint dset {K V} (eqb : K -> K -> bool) (k : K) (v : V) (d : list (K * V)) : list (K * V) :=
  match d with [] => [(k, v)] | (k0, v0) :: t => if eqb k k0 then (k0, v) :: t else (k0, v0) :: dset eqb k v t end.
Definition key_eqb (a b : key) : bool :=
  match a, b with
  | KStr s, KStr t => s =? t | KInt x, KInt y => (x =? y)%Z | KFloat x, KFloat y => (x =? y)%Z | KBool x, KBool y => Bool.eqb x y
  | KNone, KNone => true | KOther x, KOther y => (x =? y)%Z | _, _ => false
  end.
Definition dget {V} (k : string) (d : list (string * V)) : option V := match find (fun x => k =? fst x) d with None => None | Some x => Some (snd x) end.

Section Save.
  (** The texts of numbers used as keys, the text str(v), str(type(v)), and base64 of cloudpickle; loads of a
      text that is no pickle raises. *)
  Variable int_text float_text : Z -> string.
  Variable str type_text pickle : py -> string.
  Variable unpickle : string -> option py.

  Definition key_text (k : key) : option string :=
    match k with
    | KStr s => Some s | KInt z => Some (int_text z) | KFloat z => Some (float_text z)
    | KBool b => Some (if b then "true" else "false") | KNone => Some "null" | KOther _ => None
    end.
  (** json.dumps: TypeError on objects and on keys that are not basic; tuples are written as arrays.  The fields
      of a dictionary are written one after the other, even if two keys have the same text. *)
  Fixpoint dumps (v : py) : option jv :=
    match v with
    | PNone => Some JNull | PBool b => Some (JBool b) | PInt z => Some (JInt z) | PFloat f => Some (JFloat f) | PStr s => Some (JStr s)
    | PList l | PTuple l =>
        match (fix go (l : list py) : option (list jv) := match l with [] => Some [] | x :: t => match dumps x, go t with Some j, Some r => Some (j :: r) | _, _ => None end end) l with
        | Some r => Some (JArr r) | None => None end
    | PDict l =>
        match (fix go (l : list (key * py)) : option (list (string * jv)) :=
          match l with [] => Some [] | (k, x) :: t => match key_text k, dumps x, go t with Some s, Some j, Some r => Some ((s, j) :: r) | _, _, _ => None end end) l with
        | Some r => Some (JObj r) | None => None end
    | PObj _ _ => None
    end.
  (** json.loads: arrays become lists, fields become dictionaries with texts as keys, assigned in their order. *)
  Fixpoint loads (j : jv) : py :=
    match j with
    | JNull => PNone | JBool b => PBool b | JInt z => PInt z | JFloat f => PFloat f | JStr s => PStr s
    | JArr l => PList (map loads l)
    | JObj l => PDict (fold_left (fun d x => dset key_eqb (KStr (fst x)) (snd x) d) (map (fun x => (fst x, loads (snd x))) l) [])
    end.
  (** is_json_serializable (save_util.py:11-24). *)
  Definition serializable (v : py) : bool := match dumps v with Some _ => true | None => false end.
  (** The attributes looked at (65-70): the items of a dictionary or of __dict__; a list or tuple has none. *)
  Definition items (v : py) : list (key * py) :=
    match v with PDict l => l | PObj _ (Some l) => map (fun x => (KStr (fst x), snd x)) l | _ => [] end.
  (** What is stored for a value that json refuses (45-80). *)
  Definition wrapped (v : py) : py :=
    PDict (fold_left (fun d x => dset key_eqb (fst x) (if serializable (snd x) then snd x else PStr (str (snd x))) d) (items v)
      [(KStr ":type:", PStr (type_text v)); (KStr ":serialized:", PStr (pickle v))]).
  (** data_to_json (27-82); [data]: a dictionary with texts as keys. *)
  Definition data_to_json (data : list (string * py)) : option jv :=
    dumps (PDict (map (fun x => (KStr (fst x), if serializable (snd x) then snd x else wrapped (snd x))) data)).
  (** The fields of a JSON object as json.loads sees them. *)
  Definition fields (j : jv) : option (list (string * py)) :=
    match loads j with
    | PDict l => Some (map (fun x => (match fst x with KStr s => s | _ => "" end, snd x)) l)
    | _ => None
    end.
  (** One item of json_to_data (107-131). *)
  Definition read_item (custom : list (string * py)) (k : string) (v : py) : option py :=
    match dget k custom with
    | Some c => Some c
    | None =>
        match v with
        | PDict l => match find (fun x => key_eqb (KStr ":serialized:") (fst x)) l with
                     | Some (_, PStr s) => unpickle s
                     | Some _ => None
                     | None => Some v
                     end
        | _ => Some v
        end
    end.
  Fixpoint read_all (custom : list (string * py)) (l : list (string * py)) : option (list (string * py)) :=
    match l with
    | [] => Some []
    | (k, v) :: t => match read_item custom k v, read_all custom t with Some x, Some r => Some ((k, x) :: r) | _, _ => None end
    end.
  (** json_to_data (85-132); no custom_objects is an empty dictionary. *)
  Definition json_to_data (custom : list (string * py)) (j : jv) : option (list (string * py)) :=
    match fields j with None => None | Some l => read_all custom l end.
End Save.

(** ** Parameters *)
(** params_to_bytes and the list of names (135-155, base_class.py:563-572): the arrays under their names, and
    the names in their order. *)
Definition stored {V} (params : list (string * V)) : list (string * V) * list string := (params, map fst params).
(** bytes_to_params (158-178): the arrays in the order of the list; KeyError for a name that is not there. *)
Fixpoint bytes_to_params {V} (arrays : list (string * V)) (names : list string) : option (list (string * V)) :=
  match names with
  | [] => Some []
  | n :: t => match dget n arrays, bytes_to_params arrays t with Some v, Some r => Some ((n, v) :: r) | _, _ => None end
  end.
(** load_parameters (base_class.py:484-501) on a dictionary; [vars]: the variables of the model.  Nothing is
    assigned before all checks passed. *)
Definition load_dict {V} (vars given : list (string * V)) (exact_match : bool) : option (list (string * V)) :=
  if forallb (fun g => existsb (fun x => fst g =? fst x) vars) given
  then if exact_match && negb (forallb (fun x => existsb (fun g => fst x =? fst g) given) vars) then None
       else Some (map (fun x => (fst x, match dget (fst x) given with Some v => v | None => snd x end)) vars)
  else None.
(** On a list (465-475): one value for each variable, in the order of the variables; IndexError if it is too
    short. *)
Definition load_list {V} (vars : list (string * V)) (given : list V) (exact_match : bool) : option (list (string * V)) :=
  if (List.length given <? List.length vars)%nat then None
  else load_dict vars (combine (map fst vars) given) exact_match.

(** ** File names *)
Definition chars := list ascii.
Definition dot : ascii := "."%char.
Definition slash : ascii := "/"%char.
(** The last component of a path, reversed. *)
Fixpoint until_slash (r : chars) : chars := match r with [] => [] | c :: t => if Ascii.eqb c slash then [] else c :: until_slash t end.
(** The part before the last dot, reversed, if there is a dot. *)
Fixpoint before_dot (r : chars) : option chars := match r with [] => None | c :: t => if Ascii.eqb c dot then Some t else before_dot t end.
(** os.path.splitext(p)[1] == "" (576-577): no dot in the last component, or only dots before its last dot. *)
Definition no_ext (p : chars) : bool :=
  match before_dot (until_slash (rev p)) with None => true | Some r => forallb (fun c => Ascii.eqb c dot) r end.
(** _save_to_file_zip (575-578) and _load_from_file (646-651): the file written, the file read. *)
Definition zip : chars := [dot; "z"%char; "i"%char; "p"%char].
Definition save_name (p : chars) : chars := if no_ext p then (p ++ zip)%list else p.
Definition load_name (exists_file : chars -> bool) (p : chars) : option chars :=
  if exists_file p then Some p else if exists_file (p ++ zip)%list then Some (p ++ zip)%list else None.

(** ** Hyperparameters *)
(** An algorithm: what its constructor sets from its arguments, with their defaults, the other things it sets,
    and the names its save method stores.  Values are an arbitrary type. *)
Inductive algo := DQN | A2C | PPO2 | ACER | ACKTR.
(** The attributes set from arguments of the constructor, as set in dqn.py:66-83, a2c.py:72-81, ppo2.py:54-64,
    acer_simple.py:191-206, acktr.py:61-69, and verbose, seed in base_class.py:47, 58. *)
Definition arguments (a : algo) : list string :=
  match a with
  | DQN => ["learning_starts"; "train_freq"; "prioritized_replay"; "batch_size"; "target_network_update_freq"; "exploration_final_eps"; "exploration_initial_eps";
            "exploration_fraction"; "buffer_size"; "learning_rate"; "gamma"; "verbose"; "seed"]
  | A2C => ["n_steps"; "gamma"; "vf_coef"; "ent_coef"; "max_grad_norm"; "alpha"; "lr_schedule"; "learning_rate"; "verbose"; "seed"]
  | PPO2 => ["learning_rate"; "cliprange"; "n_steps"; "ent_coef"; "vf_coef"; "max_grad_norm"; "gamma"; "lam"; "nminibatches"; "noptepochs"; "verbose"; "seed"]
  | ACER => ["n_steps"; "replay_ratio"; "buffer_size"; "replay_start"; "gamma"; "q_coef"; "ent_coef"; "max_grad_norm"; "learning_rate"; "lr_schedule"; "verbose"; "seed"]
  | ACKTR => ["n_steps"; "gamma"; "ent_coef"; "vf_coef"; "vf_fisher_coef"; "kfac_clip"; "max_grad_norm"; "learning_rate"; "lr_schedule"; "verbose"; "seed"]
  end.
(** The names of the dictionary that save stores (dqn.py:369-394, a2c.py:308-327, ppo2.py:409-430,
    acer_simple.py:641-662, acktr.py:386-407). *)
Definition common : list string := ["verbose"; "policy"; "observation_space"; "action_space"; "n_envs"; "n_cpu_tf_sess"; "seed"; "_vectorize_action"; "policy_kwargs"].
Definition saved (a : algo) : list string :=
  (match a with
  | DQN => ["double_q"; "param_noise"; "learning_starts"; "train_freq"; "prioritized_replay"; "prioritized_replay_eps"; "batch_size"; "target_network_update_freq";
            "prioritized_replay_alpha"; "prioritized_replay_beta0"; "prioritized_replay_beta_iters"; "exploration_final_eps"; "exploration_fraction"; "learning_rate"; "gamma"]
  | A2C => ["gamma"; "n_steps"; "vf_coef"; "ent_coef"; "max_grad_norm"; "learning_rate"; "alpha"; "epsilon"; "lr_schedule"]
  | PPO2 => ["gamma"; "n_steps"; "vf_coef"; "ent_coef"; "max_grad_norm"; "learning_rate"; "lam"; "nminibatches"; "noptepochs"; "cliprange"; "cliprange_vf"]
  | ACER => ["gamma"; "n_steps"; "q_coef"; "ent_coef"; "max_grad_norm"; "learning_rate"; "lr_schedule"; "rprop_alpha"; "rprop_epsilon"; "replay_ratio"; "replay_start"]
  | ACKTR => ["gamma"; "gae_lambda"; "n_steps"; "vf_coef"; "ent_coef"; "vf_fisher_coef"; "max_grad_norm"; "learning_rate"; "kfac_clip"; "lr_schedule"; "kfac_update"]
  end ++ common)%list.
(** A model's __dict__ as a function. *)
Definition attrs (V : Type) := string -> option V.
Definition save_data {V} (a : algo) (m : attrs V) : list (string * option V) := map (fun n => (n, m n)) (saved a).
Definition update {V} (m : attrs V) (d : list (string * option V)) : attrs V := fold_left (fun m x n => if n =? fst x then snd x else m n) d m.
(** load (936-951, 1044-1059): a model made with the defaults ([fresh], num_timesteps 0 in it), updated by the data
    and by the keyword arguments; other policy_kwargs than the stored ones raise.  set_env, setup_model and
    load_parameters are modelled separately. *)
Definition load_attrs {V} (eqb : V -> V -> bool) (fresh : attrs V) (data kwargs : list (string * option V)) : option (attrs V) :=
  match find (fun x => fst x =? "policy_kwargs") kwargs, find (fun x => fst x =? "policy_kwargs") data with
  | Some (_, Some v), Some (_, Some w) => if eqb v w then Some (update (update fresh data) kwargs) else None
  | Some _, _ => None
  | None, _ => Some (update (update fresh data) kwargs)
  end.

(** ** Environments *)
(** An environment: its spaces, and how many environments it holds if it is vectorized. *)
Record env := Env { e_obs : nat; e_act : nat; e_num : option nat }.
Record rlmodel := RL { m_requires : bool; m_recurrent : bool; m_obs : nat; m_act : nat; m_n : nat; m_vecact : bool; m_env : option env }.
(** BaseRLModel.__init__ (66-93) with an environment: a plain one is wrapped if the algorithm needs a vectorized
    one, a vectorized one of a single environment is unwrapped if it needs a plain one. *)
Definition wrap1 (e : env) : env := Env (e_obs e) (e_act e) (Some 1%nat).
Definition construct (requires recurrent : bool) (e : env) : option rlmodel :=
  if requires then
    match e_num e with
    | Some n => Some (RL requires recurrent (e_obs e) (e_act e) n false (Some e))
    | None => Some (RL requires recurrent (e_obs e) (e_act e) 1 false (Some (wrap1 e)))
    end
  else
    match e_num e with
    | Some n => if (n =? 1)%nat then Some (RL requires recurrent (e_obs e) (e_act e) 1 true (Some (wrap1 e))) else None
    | None => Some (RL requires recurrent (e_obs e) (e_act e) 1 false (Some e))
    end.
(** set_env (115-164). *)
Definition set_env (m : rlmodel) (o : option env) : option rlmodel :=
  match o, m_env m with
  | None, None => Some m
  | None, Some _ => None
  | Some e, _ =>
      if ((m_obs m =? e_obs e) && (m_act m =? e_act e))%nat then
        if m_requires m then
          match e_num e with
          | None => None
          | Some n => if negb (m_recurrent m) || (m_n m =? n)%nat then Some (RL true (m_recurrent m) (m_obs m) (m_act m) n (m_vecact m) (Some e)) else None
          end
        else
          match e_num e with
          | Some n => if (n =? 1)%nat then Some (RL false (m_recurrent m) (m_obs m) (m_act m) 1 true (Some (wrap1 e))) else None
          | None => Some (RL false (m_recurrent m) (m_obs m) (m_act m) 1 false (Some e))
          end
      else None
  end.

(** PPO2: setup_model fixes n_batch = n_envs * n_steps (ppo2.py:114); set_env changes n_envs only; the runner
    collects n_envs * n_steps rows, those of an environment one after the other (swap_and_flatten); learn trains on
    the rows np.arange(n_batch), shuffled, cut into minibatches (347-359), [shuffled] a permutation of them;
    a row that does not exist raises IndexError. *)
Definition ppo_rows {A} (rows : list A) (shuffled : list nat) : option (list A) :=
  fold_right (fun i acc => match nth_error rows i, acc with Some r, Some l => Some (r :: l) | _, _ => None end) (Some []) shuffled.
(** The number of updates of learn (316) and the environment steps they make. *)
Definition ppo_updates (total n_batch : nat) : nat := total / n_batch.
Definition ppo_steps (total n_batch n_envs n_steps : nat) : nat := ppo_updates total n_batch * (n_envs * n_steps).
