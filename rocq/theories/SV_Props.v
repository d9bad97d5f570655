(** C98, C99, C100: saving and loading. *)
From Coq Require Import Ascii String List Arith ZArith Bool Permutation.
From Verif Require Import SV_Model SV_Spec SV_Proofs SV_Params.
Import ListNotations.
Open Scope string_scope.

(** C98: a dictionary of values that json keeps, or that json refuses and pickle restores, comes back as it was, whatever the texts of numbers, objects and pickles are. *)
Theorem C98_roundtrip : forall (int_text float_text : Z -> string) (str type_text pickle : py -> string) (unpickle : string -> option py) (data : list (string * py)),
  sane_texts int_text float_text -> NoDup (map fst data) ->
  (forall k v, In (k, v) data -> plain_item v \/ pickled_item pickle unpickle v) ->
  exists j, data_to_json int_text float_text str type_text pickle data = Some j /\ json_to_data unpickle [] j = Some data.
Proof. intros it ft st ty pk up data S N K. exact (roundtrip it ft st ty pk up S data N K). Qed.
Print Assumptions C98_roundtrip.

(** C98: a value json accepts comes back as itself exactly when it has no tuples and only texts as keys, each once. *)
Theorem C98_same_iff : forall (int_text float_text : Z -> string) (str type_text pickle : py -> string) (unpickle : string -> option py) (k : string) (v : py),
  sane_texts int_text float_text -> json_ok v -> (forall l, v = PDict l -> ~ In (KStr marker) (map fst l)) ->
  exists j w, data_to_json int_text float_text str type_text pickle [(k, v)] = Some j /\ json_to_data unpickle [] j = Some [(k, w)] /\ (w = v <-> clean v).
Proof. intros it ft st ty pk up k v S O M. exact (one_value it ft st ty pk up S k v O M). Qed.
Print Assumptions C98_same_iff.

(** C98: custom objects replace the stored values of their names, which need not be restorable; the other items come back; no name is added. *)
Theorem C98_custom : forall (int_text float_text : Z -> string) (str type_text pickle : py -> string) (unpickle : string -> option py) (data custom : list (string * py)) (j : jv),
  sane_texts int_text float_text -> NoDup (map fst data) -> data_to_json int_text float_text str type_text pickle data = Some j ->
  (forall k v, In (k, v) data -> (plain_item v \/ pickled_item pickle unpickle v) \/ In k (map fst custom)) ->
  json_to_data unpickle custom j = Some (map (or_custom custom) data).
Proof. intros it ft st ty pk up data custom j S N J K. exact (load_custom it ft st ty pk up S data custom j N J K). Qed.
Print Assumptions C98_custom.

(** C98: a tuple comes back as a list. *)
Theorem C98_tuple_refuted : forall (int_text float_text : Z -> string) (str type_text pickle : py -> string) (unpickle : string -> option py) (k : string) (l : list py), Forall clean l ->
  exists j, data_to_json int_text float_text str type_text pickle [(k, PTuple l)] = Some j /\ json_to_data unpickle [] j = Some [(k, PList l)].
Proof. intros it ft st ty pk up k l C. exact (tuple_list it ft st ty pk up k l C). Qed.
Print Assumptions C98_tuple_refuted.

(** C98: of a number and its text as keys of one dictionary, only the text comes back, with the later value. *)
Theorem C98_keys_refuted : forall (int_text float_text : Z -> string) (str type_text pickle : py -> string) (unpickle : string -> option py) (k : string) (z : Z) (a b : py),
  sane_texts int_text float_text -> clean a -> clean b ->
  exists j, data_to_json int_text float_text str type_text pickle [(k, PDict [(KInt z, a); (KStr (int_text z), b)])] = Some j /\ json_to_data unpickle [] j = Some [(k, PDict [(KStr (int_text z), b)])].
Proof. intros it ft st ty pk up k z a b S A B. exact (keys_collide it ft st ty pk up S k z a b A B). Qed.
Print Assumptions C98_keys_refuted.

(** C98: a user's dictionary with the key :serialized: is unpickled: what comes back is whatever its text unpickles to. *)
Theorem C98_marker_refuted : forall (int_text float_text : Z -> string) (str type_text pickle : py -> string) (unpickle : string -> option py) (k s : string) (l : list (key * py)),
  clean (PDict l) -> In (KStr marker, PStr s) l ->
  exists j, data_to_json int_text float_text str type_text pickle [(k, PDict l)] = Some j /\ json_to_data unpickle [] j = match unpickle s with Some w => Some [(k, w)] | None => None end.
Proof. intros it ft st ty pk up k s l C I. exact (marked_dict it ft st ty pk up k l s C I). Qed.
Print Assumptions C98_marker_refuted.

(** C98: an object with an attribute :serialized: loses its pickle: what comes back is whatever the attribute unpickles to. *)
Theorem C98_attribute_refuted : forall (int_text float_text : Z -> string) (str type_text pickle : py -> string) (unpickle : string -> option py) (k s : string) (id : Z) (l : list (string * py)),
  sane_texts int_text float_text -> NoDup (map fst l) -> In (marker, PStr s) l ->
  exists j, data_to_json int_text float_text str type_text pickle [(k, PObj id (Some l))] = Some j /\ json_to_data unpickle [] j = match unpickle s with Some w => Some [(k, w)] | None => None end.
Proof. intros it ft st ty pk up k s id l S N I. exact (marked_object it ft st ty pk up S k id l s N I). Qed.
Print Assumptions C98_attribute_refuted.

(** C98: a dictionary with a key that is not basic, a tuple for instance, makes the whole save raise, although pickle could store it. *)
Theorem C98_key_raises : forall (int_text float_text : Z -> string) (str type_text pickle : py -> string) (data : list (string * py)) (k : string) (l : list (key * py)) (id : Z),
  In (k, PDict l) data -> In (KOther id) (map fst l) -> data_to_json int_text float_text str type_text pickle data = None.
Proof. intros it ft st ty pk data k l id I K. exact (other_key it ft st ty pk data k l id I K). Qed.
Print Assumptions C98_key_raises.

(** C99: parameters with different names come back from the archive, in their order. *)
Theorem C99_parameters : forall (V : Type) (params : list (string * V)), NoDup (map fst params) -> bytes_to_params (fst (stored params)) (snd (stored params)) = Some params.
Proof. intros V params N. exact (params_back params N). Qed.
Print Assumptions C99_parameters.

(** C99: load_parameters accepts a dictionary exactly when every name in it is a parameter and, for an exact match, every parameter is in it. *)
Theorem C99_accepts : forall (V : Type) (vars given : list (string * V)) (exact_match : bool),
  (exists r, load_dict vars given exact_match = Some r) <->
  (forall n, In n (map fst given) -> In n (map fst vars)) /\ (exact_match = true -> forall n, In n (map fst vars) -> In n (map fst given)).
Proof. intros V vars given ex. exact (load_dict_iff vars given ex). Qed.
Print Assumptions C99_accepts.

(** C99: then it gives every named parameter its value, and leaves the others. *)
Theorem C99_values : forall (V : Type) (vars given r : list (string * V)) (exact_match : bool), NoDup (map fst given) -> load_dict vars given exact_match = Some r ->
  map fst r = map fst vars /\ (forall n v, In (n, v) given -> In (n, v) r) /\ (forall n v, In (n, v) vars -> ~ In n (map fst given) -> In (n, v) r).
Proof. intros V vars given r ex N H. exact (conj (load_dict_names vars given ex r H) (load_dict_values vars given ex r N H)). Qed.
Print Assumptions C99_values.

(** C99: loading the model's own parameters changes nothing. *)
Theorem C99_identity : forall (V : Type) (vars : list (string * V)), NoDup (map fst vars) -> load_dict vars vars true = Some vars.
Proof. intros V vars N. exact (load_same vars N). Qed.
Print Assumptions C99_identity.

(** C99: a list as long as the parameters sets them in order. *)
Theorem C99_list : forall (V : Type) (vars : list (string * V)) (given : list V) (exact_match : bool), NoDup (map fst vars) -> List.length given = List.length vars ->
  load_list vars given exact_match = Some (combine (map fst vars) given).
Proof. intros V vars given ex N L. rewrite (load_list_eq vars given ex N (Nat.eq_le_incl _ _ (eq_sym L))). rewrite <- L, firstn_all. exact eq_refl. Qed.
Print Assumptions C99_list.

(** C99: a longer list is accepted even for an exact match, its further values ignored; a shorter one raises even without an exact match. *)
Theorem C99_list_refuted : forall (V : Type) (vars : list (string * V)) (given more : list V) (exact_match : bool), NoDup (map fst vars) ->
  (List.length given = List.length vars -> load_list vars (given ++ more)%list exact_match = Some (combine (map fst vars) given)) /\
  ((List.length given < List.length vars)%nat -> load_list vars given exact_match = None).
Proof. intros V vars given more ex N. exact (list_longer_shorter vars given more ex N). Qed.
Print Assumptions C99_list_refuted.

(** C99: a path has no extension for os.path.splitext exactly when its last component has no dot behind something other than dots. *)
Theorem C99_extension : forall p : chars, no_ext p = false <-> has_ext p.
Proof. intros p. exact (ext_iff p). Qed.
Print Assumptions C99_extension.

(** C99: load with the path given to save reads the file that save wrote, if the path has an extension or nothing has exactly this path. *)
Theorem C99_file : forall (exists_file : chars -> bool) (p : chars), exists_file (save_name p) = true -> has_ext p \/ exists_file p = false -> load_name exists_file p = Some (save_name p).
Proof. intros ex p E H. exact (file_read ex p E H). Qed.
Print Assumptions C99_file.

(** C99: otherwise load reads the other file, or tries to read a directory, instead of the one just saved. *)
Theorem C99_file_refuted : forall (exists_file : chars -> bool) (p : chars), ~ has_ext p -> exists_file p = true -> load_name exists_file p = Some p /\ save_name p <> p.
Proof. intros ex p H E. exact (file_shadowed ex p H E). Qed.
Print Assumptions C99_file_refuted.

(** C99: a loaded A2C, PPO2 or ACKTR model has the constructor arguments of the saved one, a loaded DQN model all but buffer_size and exploration_initial_eps, a loaded ACER model all but buffer_size. *)
Theorem C99_hyperparameters : forall (V : Type) (eqb : V -> V -> bool) (a : algo) (m fresh : attrs V),
  exists m', load_attrs eqb fresh (save_data a m) [] = Some m' /\ forall n, In n (arguments a) -> ~ In n (lost a) -> m' n = m n.
Proof. intros V eqb a m fresh. destruct (hyper_back eqb a m fresh) as (m' & A & B & _). exact (ex_intro _ m' (conj A B)). Qed.
Print Assumptions C99_hyperparameters.

(** C99: these arguments, and the number of timesteps trained, come back as the defaults. *)
Theorem C99_lost_refuted : forall (V : Type) (eqb : V -> V -> bool) (a : algo) (m fresh : attrs V),
  exists m', load_attrs eqb fresh (save_data a m) [] = Some m' /\ (forall n, In n (lost a) -> m' n = fresh n) /\ m' "num_timesteps" = fresh "num_timesteps".
Proof. intros V eqb a m fresh. destruct (hyper_back eqb a m fresh) as (m' & A & _ & B). exact (ex_intro _ m' (conj A B)). Qed.
Print Assumptions C99_lost_refuted.

(** C99: keyword arguments of load override the saved values, one by one; a misspelt one is accepted and sets an attribute nothing reads. *)
Theorem C99_kwargs : forall (V : Type) (eqb : V -> V -> bool) (a : algo) (m fresh : attrs V) (kwargs : list (string * option V)), NoDup (map fst kwargs) -> ~ In "policy_kwargs" (map fst kwargs) ->
  exists m', load_attrs eqb fresh (save_data a m) kwargs = Some m' /\ (forall n v, In (n, v) kwargs -> m' n = v) /\
    (forall n, In n (arguments a) -> ~ In n (lost a) -> ~ In n (map fst kwargs) -> m' n = m n).
Proof. intros V eqb a m fresh kwargs N P. exact (kwargs_arguments eqb a m fresh kwargs N P). Qed.
Print Assumptions C99_kwargs.

(** C99: policy_kwargs given to load must be the saved ones. *)
Theorem C99_policy_kwargs : forall (V : Type) (eqb : V -> V -> bool) (a : algo) (m fresh : attrs V) (v w : V), m "policy_kwargs" = Some w ->
  (load_attrs eqb fresh (save_data a m) [("policy_kwargs", Some v)] = None <-> eqb v w = false).
Proof. intros V eqb a m fresh v w M. exact (policy_kwargs_checked eqb a m fresh v w M). Qed.
Print Assumptions C99_policy_kwargs.

(** C100: a constructor refuses only several environments for an algorithm that needs one; the model has the spaces and the number of environments given to it. *)
Theorem C100_construct : forall (requires recurrent : bool) (e : env),
  ((exists m, construct requires recurrent e = Some m) <-> requires = true \/ count e = 1%nat) /\
  (forall m, construct requires recurrent e = Some m -> m_obs m = e_obs e /\ m_act m = e_act e /\ m_n m = count e /\ m_requires m = requires /\ m_recurrent m = recurrent /\
     exists e', m_env m = Some e' /\ e_obs e' = e_obs e /\ e_act e' = e_act e /\ count e' = count e /\ (requires = true -> e_num e' = Some (count e))).
Proof. intros req rec e. exact (conj (construct_iff req rec e) (construct_facts req rec e)). Qed.
Print Assumptions C100_construct.

(** C100: set_env accepts an environment exactly when it has the spaces of the model and a fitting number of environments. *)
Theorem C100_accepts : forall (m : rlmodel) (e : env),
  (exists m', set_env m (Some e) = Some m') <->
  m_obs m = e_obs e /\ m_act m = e_act e /\ (m_requires m = true -> e_num e <> None /\ (m_recurrent m = true -> m_n m = count e)) /\ (m_requires m = false -> count e = 1%nat).
Proof. intros m e. exact (set_env_iff m e). Qed.
Print Assumptions C100_accepts.

(** C100: then the model keeps its spaces and holds that environment and its number. *)
Theorem C100_set : forall (m m' : rlmodel) (e : env), set_env m (Some e) = Some m' ->
  m_obs m' = m_obs m /\ m_act m' = m_act m /\ m_requires m' = m_requires m /\ m_recurrent m' = m_recurrent m /\ m_n m' = count e /\
  exists e', m_env m' = Some e' /\ e_obs e' = e_obs e /\ e_act e' = e_act e /\ count e' = count e.
Proof. intros m m' e H. exact (set_env_facts m e m' H). Qed.
Print Assumptions C100_set.

(** C100: None is accepted only by a model without an environment. *)
Theorem C100_none : forall m : rlmodel, (exists m', set_env m None = Some m') <-> m_env m = None.
Proof. intros m. exact (set_env_none m). Qed.
Print Assumptions C100_none.

(** C100: the plain environment a model was made with is refused when it is set again, if the algorithm works on vectorized ones. *)
Theorem C100_plain_refuted : forall (recurrent : bool) (e : env), e_num e = None -> exists m, construct true recurrent e = Some m /\ set_env m (Some e) = None.
Proof. intros rec e E. exact (plain_refused rec e E). Qed.
Print Assumptions C100_plain_refuted.

(** C100: PPO2 with the number of environments it was set up with trains on every row it collected. *)
Theorem C100_ppo : forall (A : Type) (per_env : list (list A)) (n n_steps : nat) (shuffled : list nat),
  Forall (fun r => List.length r = n_steps) per_env -> List.length per_env = n -> Permutation shuffled (seq 0 (n * n_steps)) ->
  exists l, ppo_rows (concat per_env) shuffled = Some l /\ Permutation l (concat per_env).
Proof. intros A per n s sh F L P. destruct (ppo_trains per n s sh F (Nat.eq_le_incl _ _ (eq_sym L)) P) as (l & E & Q). rewrite <- L, firstn_all in Q. exact (ex_intro _ l (conj E Q)). Qed.
Print Assumptions C100_ppo.

(** C100: after set_env with more environments, PPO2 trains only on the rows of the first n of them. *)
Theorem C100_ppo_refuted : forall (A : Type) (per_env : list (list A)) (n n_steps : nat) (shuffled : list nat),
  Forall (fun r => List.length r = n_steps) per_env -> (n <= List.length per_env)%nat -> Permutation shuffled (seq 0 (n * n_steps)) ->
  exists l, ppo_rows (concat per_env) shuffled = Some l /\ Permutation l (concat (firstn n per_env)).
Proof. intros A per n s sh F L P. exact (ppo_trains per n s sh F L P). Qed.
Print Assumptions C100_ppo_refuted.

(** C100: after set_env with fewer environments, its training raises. *)
Theorem C100_ppo_raises : forall (A : Type) (per_env : list (list A)) (n n_steps : nat) (shuffled : list nat),
  Forall (fun r => List.length r = n_steps) per_env -> (List.length per_env < n)%nat -> (0 < n_steps)%nat -> Permutation shuffled (seq 0 (n * n_steps)) -> ppo_rows (concat per_env) shuffled = None.
Proof. intros A per n s sh F L S P. exact (ppo_fewer per n s sh F L S P). Qed.
Print Assumptions C100_ppo_raises.

(** C100: learn makes at most total_timesteps steps, and less than one batch fewer. *)
Theorem C100_steps : forall total n n_steps : nat, (0 < n * n_steps)%nat -> (ppo_steps total (n * n_steps) n n_steps <= total < ppo_steps total (n * n_steps) n n_steps + n * n_steps)%nat.
Proof. intros total n s H. exact (ppo_steps_bound total n s H). Qed.
Print Assumptions C100_steps.

(** C100: after set_env with k times as many environments it makes k times as many steps, more than asked for. *)
Theorem C100_steps_refuted : forall total n n_steps k : nat, (0 < n * n_steps)%nat -> ppo_steps total (n * n_steps) (k * n) n_steps = (k * ppo_steps total (n * n_steps) n n_steps)%nat.
Proof. intros total n s k H. exact (ppo_steps_more total n s k H). Qed.
Print Assumptions C100_steps_refuted.
