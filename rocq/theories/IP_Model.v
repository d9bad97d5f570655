(** Model of the input files: neorl/parsers/PARSER.py and ParamList.py. *)
From Coq Require Import Ascii String List Arith ZArith Bool.
Import ListNotations.
Open Scope list_scope.

(** Text as a list of characters. *)
Definition text := list ascii.
Definition t (s : string) : text := list_ascii_of_string s.
Definition teqb (a b : text) : bool := if list_eq_dec ascii_dec a b then true else false.
Definition mem (x : text) (l : list text) : bool := existsb (teqb x) l.

(** What a call does: a result, an exception, or no end. *)
Inductive result (A : Type) := Ok (a : A) | Raise | Hang.
Arguments Ok {A}. Arguments Raise {A}. Arguments Hang {A}.

(** Dictionaries: assignment keeps the place of an old key; reading. *)
Fixpoint dset {V} (k : text) (v : V) (d : list (text * V)) : list (text * V) :=
  match d with [] => [(k, v)] | (k0, v0) :: r => if teqb k k0 then (k0, v) :: r else (k0, v0) :: dset k v r end.
Definition dget {V} (k : text) (d : list (text * V)) : option V := match find (fun x => teqb k (fst x)) d with Some x => Some (snd x) | None => None end.
Definition has {V} (k : text) (d : list (text * V)) : bool := mem k (map fst d).

Section File.
  (** str.isspace and str.isalpha of a character. *)
  Variable isspace isalpha : ascii -> bool.
  (** str.strip. *)
  Fixpoint lstrip (s : text) : text := match s with [] => [] | c :: r => if isspace c then lstrip r else s end.
  Definition strip (s : text) : text := rev (lstrip (rev (lstrip s))).
  (** sub in s. *)
  Fixpoint prefix (a s : text) : bool := match a, s with [], _ => true | x :: a', y :: s' => Ascii.eqb x y && prefix a' s' | _, [] => false end.
  Fixpoint contains (a s : text) : bool := prefix a s || match s with [] => false | _ :: s' => contains a s' end.
  (** s[:s.rfind("#")] (PARSER.py:80, 86): the text before the last #; without a # all but the last character. *)
  Fixpoint after_hash (s : text) : option text := match s with [] => None | c :: r => if Ascii.eqb c "#" then Some r else after_hash r end.
  Definition cut (s : text) : text := match after_hash (rev s) with Some r => rev r | None => removelast s end.
  Definition count (c : ascii) (s : text) : nat := List.length (filter (Ascii.eqb c) s).
  Definition balanced (s : text) : bool := (count "{" s =? count "}" s)%nat.
  (** The loop over the lines (72-92), with the dictionary being joined if there is one; None: readline answers the
      empty text for ever and the loop does not end. *)
  Fixpoint read (pending : option text) (lines : list text) : option (list text) :=
    match lines with
    | [] => match pending with None => Some [] | Some _ => None end
    | l :: rest =>
        match pending with
        | Some p => let p' := p ++ strip (cut l) in if balanced p' then option_map (cons p') (read None rest) else read (Some p') rest
        | None =>
            if contains (t "env_data") l
            then let p := strip (cut l) in if balanced p then option_map (cons p) (read None rest) else read (Some p) rest
            else option_map (cons (strip l)) (read None rest)
        end
    end.
  (** The check of the first characters (96-102), the removal of empty lines and comments (105-107) and the check for
      the GENERAL block (112-116). *)
  Definition first_ok (s : text) : bool := match s with [] => true | c :: _ => isalpha c || Ascii.eqb c "#" || Ascii.eqb c "{" end.
  Definition kept_line (s : text) : bool := match s with [] => false | c :: _ => negb (Ascii.eqb c "#") end.
  Definition read_of (card : text) : text := t "READ " ++ card.
  Definition end_of (card : text) : text := t "END " ++ card.
  Definition has_block (card : text) (l : list text) : bool := mem (read_of card) l && mem (end_of card) l.
  Definition input_file (lines : list text) : result (list text) :=
    match read None lines with
    | None => Hang
    | Some items =>
        if forallb first_ok items
        then let l := filter kept_line items in if has_block (t "GENERAL") l then Ok l else Raise
        else Raise
    end.
  (** str.split("="). *)
  Fixpoint split (c : ascii) (s : text) : list text :=
    match s with
    | [] => [[]]
    | x :: r => if Ascii.eqb x c then [] :: split c r else match split c r with [] => [[x]] | h :: u => (x :: h) :: u end
    end.
  Fixpoint index (x : text) (l : list text) : option nat :=
    match l with [] => None | y :: r => if teqb x y then Some 0%nat else option_map S (index x r) end.
  (** parse_card (119-152).  [to_dict]: json.loads, or else literal_eval; None if both fail.  A value is a text, or the
      dictionary of env_data. *)
  Context {D : Type}.
  Variable to_dict : text -> option D.
  Inductive value := Raw (s : text) | Data (d : D).
  Definition parse_line (s : text) : option (text * value) :=
    let parts := map strip (split "=" s) in
    match parts with
    | k :: v :: _ => if mem (t "env_data") parts then option_map (fun d => (k, Data d)) (to_dict v) else Some (k, Raw v)
    | _ => None
    end.
  Definition parse_lines (block : list text) : option (list (text * value)) :=
    fold_left (fun acc s => match acc, parse_line s with Some d, Some (k, v) => Some (dset k v d) | _, _ => None end) block (Some []).
  Definition block_of (card : text) (l : list text) : option (list text) :=
    match index (read_of card) l, index (end_of card) l with
    | Some i, Some j => Some (firstn (j - S i) (skipn (S i) l))
    | _, _ => None
    end.
  Definition parse_card (card : text) (l : list text) : option (list (text * value)) :=
    match block_of card l with Some b => parse_lines b | None => None end.
  (** blocks (154-206): the GENERAL block, the TUNE block if there is one, the blocks of the algorithms in this order. *)
  Definition algorithms : list text := map t ["DQN"; "PPO"; "A2C"; "ACER"; "GA"; "SA"]%string.
  Fixpoint parse_all (cards : list text) (l : list text) : option (list (text * list (text * value))) :=
    match cards with
    | [] => Some []
    | c :: rest => match parse_card c l, parse_all rest l with Some d, Some r => Some ((c, d) :: r) | _, _ => None end
    end.
  Definition blocks (l : list text) : option (list (text * value) * option (list (text * value)) * list (text * list (text * value))) :=
    match parse_card (t "GENERAL") l, parse_all (filter (fun c => has_block c l) algorithms) l with
    | Some g, Some algs =>
        if has_block (t "TUNE") l
        then match parse_card (t "TUNE") l with
             | Some u => if has (t "method") u && (List.length algs =? 1)%nat then Some (g, Some u, algs) else None
             | None => None
             end
        else Some (g, None, algs)
    | _, _ => None
    end.
  (** log_dir (36-37): the path up to its first dot. *)
  Fixpoint until_dot (s : text) : text := match s with [] => [] | c :: r => if Ascii.eqb c "." then [] else c :: until_dot r end.
  Definition log_dir (path : text) : text := until_dot path ++ t "_log/".
End File.
Arguments Raw {D}. Arguments Data {D}.

(** ** The tables of ParamList.py: name, need, kind; the defaults of numbers of cores and of check_freq. *)
Inductive need := Req | Opt | Special.
Inductive kind := KStr | KInt | KFloat | KBool | KStrs | KVec | KDict.
Definition row : Type := text * (need * kind).
Definition r (s : string) (n : need) (k : kind) : row := (t s, (n, k)).
Open Scope string_scope.
(** gen_dict (46-60). *)
Definition gen_table : list row :=
  [r "neorl_mode" Opt KStr; r "env" Req KStr; r "env_data" Opt KDict; r "exepath" Opt KStr; r "maxcores" Opt KInt; r "daemon" Opt KBool; r "nactions" Req KInt;
   r "xsize" Req KInt; r "xsize_plot" Opt KInt; r "ysize" Req KInt; r "ynames" Opt KStrs; r "xnames" Opt KStrs; r "plot_mode" Opt KStr].
(** tune_dict (65-73). *)
Definition tune_table : list row :=
  [r "flag" Opt KBool; r "ncores" Opt KInt; r "mode" Opt KStr; r "method" Req KStr; r "n_last_episodes" Opt KInt; r "ncases" Opt KInt; r "extfiles" Opt KStrs].
(** dqn_dict (78-112). *)
Definition dqn_table : list row :=
  [r "mode" Req KStr; r "time_steps" Special KInt; r "flag" Opt KBool; r "casename" Opt KStr; r "ncores" Opt KInt; r "gamma" Opt KFloat; r "learning_rate" Opt KFloat;
   r "buffer_size" Opt KInt; r "exploration_fraction" Opt KFloat; r "exploration_final_eps" Opt KFloat; r "exploration_initial_eps" Opt KFloat; r "train_freq" Opt KFloat;
   r "batch_size" Opt KInt; r "double_q" Opt KBool; r "learning_starts" Opt KInt; r "target_network_update_freq" Opt KInt; r "prioritized_replay" Opt KBool;
   r "prioritized_replay_alpha" Opt KFloat; r "prioritized_replay_beta0" Opt KFloat; r "model_load_path" Special KStr; r "check_freq" Opt KInt; r "avg_episodes" Opt KInt;
   r "tensorboard" Opt KBool; r "n_eval_episodes" Special KInt; r "render" Opt KBool].
(** ppo_dict (117-146). *)
Definition ppo_table : list row :=
  [r "mode" Req KStr; r "time_steps" Special KInt; r "flag" Opt KBool; r "casename" Opt KStr; r "ncores" Opt KInt; r "n_steps" Opt KInt; r "gamma" Opt KFloat;
   r "learning_rate" Opt KFloat; r "ent_coef" Opt KFloat; r "vf_coef" Opt KFloat; r "max_grad_norm" Opt KFloat; r "lam" Opt KFloat; r "nminibatches" Opt KInt;
   r "noptepochs" Opt KInt; r "cliprange" Opt KFloat; r "cliprange_vf" Opt KFloat; r "check_freq" Opt KInt; r "avg_episodes" Opt KInt; r "tensorboard" Opt KBool;
   r "model_load_path" Special KStr; r "n_eval_episodes" Special KInt; r "render" Opt KBool].
(** a2c_dict (151-179). *)
Definition a2c_table : list row :=
  [r "mode" Req KStr; r "time_steps" Special KInt; r "flag" Opt KBool; r "casename" Opt KStr; r "ncores" Opt KInt; r "n_steps" Opt KInt; r "gamma" Opt KFloat;
   r "learning_rate" Opt KFloat; r "vf_coef" Opt KFloat; r "max_grad_norm" Opt KFloat; r "ent_coef" Opt KFloat; r "momentum" Opt KFloat; r "alpha" Opt KFloat;
   r "epsilon" Opt KFloat; r "lr_schedule" Opt KStr; r "model_load_path" Special KStr; r "check_freq" Opt KInt; r "avg_episodes" Opt KInt; r "tensorboard" Opt KBool;
   r "n_eval_episodes" Special KInt; r "render" Opt KBool].
(** acer_dict (184-218). *)
Definition acer_table : list row :=
  [r "mode" Req KStr; r "time_steps" Special KInt; r "flag" Opt KBool; r "casename" Opt KStr; r "ncores" Opt KInt; r "n_steps" Opt KInt; r "gamma" Opt KFloat;
   r "learning_rate" Opt KFloat; r "q_coef" Opt KFloat; r "max_grad_norm" Opt KFloat; r "ent_coef" Opt KFloat; r "alpha" Opt KFloat; r "lr_schedule" Opt KStr;
   r "rprop_alpha" Opt KFloat; r "rprop_epsilon" Opt KFloat; r "buffer_size" Opt KInt; r "replay_ratio" Opt KFloat; r "replay_start" Opt KInt; r "correction_term" Opt KFloat;
   r "trust_region" Opt KBool; r "delta" Opt KFloat; r "model_load_path" Special KStr; r "check_freq" Opt KInt; r "avg_episodes" Opt KInt; r "tensorboard" Opt KBool;
   r "n_eval_episodes" Special KInt; r "render" Opt KBool].
(** ga_dict (223-242). *)
Definition ga_table : list row :=
  [r "flag" Opt KBool; r "mode" Req KStr; r "pop" Req KInt; r "lambda" Opt KInt; r "ngen" Req KInt; r "casename" Opt KStr; r "lbound" Opt KVec; r "ubound" Opt KVec;
   r "type" Opt KStrs; r "kbs_path" Opt KStr; r "kbs_frac" Opt KFloat; r "ncores" Opt KInt; r "indpb" Opt KFloat; r "cxpb" Opt KFloat; r "mutpb" Opt KFloat;
   r "smin" Opt KFloat; r "smax" Opt KFloat; r "check_freq" Opt KInt].
(** sa_dict (247-265). *)
Definition sa_table : list row :=
  [r "flag" Opt KBool; r "steps" Req KInt; r "casename" Opt KStr; r "ncores" Opt KInt; r "cooling" Opt KStr; r "swap" Req KStr; r "indpb_kbs" Opt KFloat;
   r "kbs_path" Special KStr; r "indpb" Opt KFloat; r "lbound" Opt KVec; r "ubound" Opt KVec; r "type" Opt KStrs; r "Tmin" Opt KInt; r "Tmax" Opt KInt;
   r "initstate" Opt KVec; r "check_freq" Opt KInt; r "avg_step" Opt KInt].
Definition table (card : text) : list row :=
  if teqb card (t "GENERAL") then gen_table else if teqb card (t "DQN") then dqn_table else if teqb card (t "PPO") then ppo_table else if teqb card (t "A2C") then a2c_table
  else if teqb card (t "ACER") then acer_table else if teqb card (t "GA") then ga_table else if teqb card (t "SA") then sa_table else [].

Section Check.
  Variable isspace : ascii -> bool.
  Context {D F : Type}.
  (** float of a text, int of a float (None: they raise), str of a dictionary, and the number of processors. *)
  Variable to_float : text -> option F.
  Variable trunc : F -> option Z.
  Variable dict_text : D -> text.
  Variable cpu_count : Z.
  Inductive val := VStr (s : text) | VInt (z : Z) | VFloat (f : F) | VBool (b : bool) | VStrs (l : list text) | VVec (l : list F) | VData (d : D).
  Fixpoint floats (l : list text) : option (list F) :=
    match l with [] => Some [] | x :: rest => match to_float (strip isspace x), floats rest with Some f, Some fs => Some (f :: fs) | _, _ => None end end.
  (** The conversions (251-263); str_to_bool (24-30).  A value for which no kind applies stays. *)
  Definition convert (k : kind) (v : @value D) : option val :=
    match k, v with
    | KStr, Raw s => Some (VStr (strip isspace s))
    | KStr, Data d => Some (VStr (strip isspace (dict_text d)))
    | KInt, Raw s => match to_float s with Some f => option_map VInt (trunc f) | None => None end
    | KFloat, Raw s => option_map VFloat (to_float s)
    | KBool, Raw s => if teqb s (t "True") then Some (VBool true) else if teqb s (t "False") then Some (VBool false) else None
    | KStrs, Raw s => Some (VStrs (map (strip isspace) (split "," s)))
    | KVec, Raw s => option_map VVec (floats (split "," s))
    | KDict, Raw s => Some (VStr s)
    | KDict, Data d => Some (VData d)
    | _, Data _ => None
    end.
  (** The first loop of check_input (245-266): unknown names and values that do not convert raise. *)
  Fixpoint convert_all (tab : list row) (d : list (text * @value D)) : option (list (text * val)) :=
    match d with
    | [] => Some []
    | (k, v) :: rest =>
        match dget k tab with
        | None => None
        | Some (_, kd) => match convert kd v, convert_all tab rest with Some x, Some u => Some ((k, x) :: u) | _, _ => None end
        end
    end.
  (** parser['mode'][0] in [...]: the first character of the mode, as a text; an empty mode raises (279, 282). *)
  Definition mode_first (p : list (text * val)) (l : list text) : option bool :=
    match dget (t "mode") p with Some (VStr (c :: _)) => Some (mem [c] l) | _ => None end.
  (** One row of the second loop (268-283): true if nothing is raised. *)
  Definition row_ok (p : list (text * val)) (x : row) : bool :=
    has (fst x) p ||
    match fst (snd x) with
    | Req => false
    | Opt => true
    | Special =>
        if teqb (fst x) (t "model_load_path") then match mode_first p (map t ["test"; "continue"]) with Some b => negb b | None => false end
        else if teqb (fst x) (t "time_steps") then match mode_first p (map t ["train"; "continue"]) with Some b => negb b | None => false end
        else true
    end.
  (** The rules about modes (286-301). *)
  Definition mode_is (m : string) (p : list (text * val)) : bool := match dget (t "mode") p with Some (VStr s) => teqb s (t m) | _ => false end.
  Definition mode_ok (p : list (text * val)) : bool :=
    let none l := negb (existsb (fun n => has n p) (map t l)) in
    (if mode_is "train" p then none ["model_load_path"; "n_eval_episodes"; "render"] else true) &&
    (if mode_is "continue" p then none ["n_eval_episodes"; "render"] else true) &&
    (if mode_is "test" p then forallb (fun x => mem (fst x) (map t ["casename"; "mode"; "model_load_path"; "n_eval_episodes"; "render"])) p else true).
  Definition rl_card (card : text) : bool := mem card (map t ["DQN"; "PPO"; "A2C"; "ACER"]).
  (** check_input (234-307). *)
  Definition check_input (card : text) (d : list (text * @value D)) : option (list (text * val)) :=
    match convert_all (table card) d with
    | None => None
    | Some p =>
        if forallb (row_ok p) (table card) && (negb (rl_card card) || mode_ok p)
        then if teqb card (t "GENERAL") && negb (has (t "xsize_plot") p)
             then match dget (t "xsize") p with Some x => Some (dset (t "xsize_plot") x p) | None => None end
             else Some p
        else None
    end.
  (** The table of a card after setup_input (e.g. 373-377): the user's value, or the default; flag is set before the
      user's values are written. *)
  Variable default : text -> text -> option val.
  Definition final (card : text) (p : list (text * val)) (n : text) : option val :=
    match dget n p with
    | Some x => Some x
    | None => if teqb n (t "flag") && negb (teqb card (t "GENERAL")) then Some (VBool true) else default card n
    end.
  Definition int_of (o : option val) : option Z := match o with Some (VInt z) => Some z | _ => None end.
  (** check_freq of PPO, A2C and ACER (391-397). *)
  Definition adjusted (check_freq ncores : Z) : Z :=
    if (1 <? ncores)%Z then if (check_freq mod ncores =? 0)%Z then check_freq else (check_freq + ncores - check_freq mod ncores)%Z else check_freq.
  (** setup_input (346-445): the checked blocks; the cores used; the limit given by the user, all processors if it is
      not positive. *)
  Fixpoint check_all (l : list (text * list (text * @value D))) : option (list (text * list (text * val))) :=
    match l with [] => Some [] | (c, d) :: rest => match check_input c d, check_all rest with Some p, Some u => Some ((c, p) :: u) | _, _ => None end end.
  Fixpoint cores (l : list (text * list (text * val))) : option Z :=
    match l with
    | [] => Some 0%Z
    | (c, p) :: rest => match int_of (final c p (t "ncores")), cores rest with Some n, Some m => Some (n + m)%Z | _, _ => None end
    end.
  Definition limit (g : list (text * val)) : option Z := match dget (t "maxcores") g with Some (VInt m) => Some (if (m <=? 0)%Z then cpu_count else m) | _ => None end.
  Definition setup (g : list (text * @value D)) (algs : list (text * list (text * @value D))) : option (list (text * val) * list (text * list (text * val))) :=
    match check_input (t "GENERAL") g, check_all algs with
    | Some g', Some a =>
        match cores a with
        | None => None
        | Some u => match limit g' with Some m => if (u <=? m)%Z then Some (g', a) else None | None => Some (g', a) end
        end
    | _, _ => None
    end.
End Check.
Arguments VStr {D F}. Arguments VInt {D F}. Arguments VFloat {D F}. Arguments VBool {D F}. Arguments VStrs {D F}. Arguments VVec {D F}. Arguments VData {D F}.
