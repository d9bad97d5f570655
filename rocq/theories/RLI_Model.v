(** Model of the RL-informed optimizers: the logger of neorl/utils/neorlcalls.py (class RLLogger),
    neorl/hybrid/ackde.py (ACKDE) and neorl/hybrid/ppoes.py (PPOES), and the RL-informed modes of
    neorl/evolu/de.py and neorl/evolu/es.py.

    The reinforcement-learning run itself is the arbitrary sequence of rewards and individuals that
    the logger sees.  [order] is [argsort] / [sort_values]: neither is stable by default, so it is an
    arbitrary function of the list of keys (the theorems assume only that it sorts).  NumPy and
    Python numbers are the same exact rationals; an exception is [None]. *)
From Coq Require Import String List Arith ZArith QArith Qround Bool.
From Verif Require Import Base Space_Model Opt_Model DE_Model ES_Model.
Import ListNotations.
Open Scope nat_scope.

(* ---------- neorl/utils/neorlcalls.py ---------- *)

(** What the logger finds in the training loop's local variables at one call: the rewards and the
    individuals (info['x']) of the parallel environments. *)
Record rlstep (X : Type) : Type := RStep { rs_rewards : list Q; rs_infos : list X }.
Arguments RStep {X}. Arguments rs_rewards {X}. Arguments rs_infos {X}.

(** Attributes n_calls, rbest_maxonly ([None]: -inf) with xbest, rbest, r_hist, x_hist. *)
Record rlog (X : Type) : Type := RLog {
  lg_calls : nat; lg_max : option (X * Q); lg_best : option Q; lg_r : list Q; lg_x : list X }.
Arguments RLog {X}. Arguments lg_calls {X}. Arguments lg_max {X}. Arguments lg_best {X}.
Arguments lg_r {X}. Arguments lg_x {X}.

Definition log_init {X} : rlog X := RLog 0 None None [] [].

(** neorlcalls.py:265-322 _on_step (called through callbacks.py:96-99, which counts the calls).
    rewards[0], infos[0]['x'].  check_freq = 0: ZeroDivisionError.  Saving the model, plotting and
    printing are not modelled. *)
Definition log_step {X} (m : mode) (freq : nat) (s : rlog X) (e : rlstep X) : option (rlog X) :=
  let n := S (lg_calls s) in
  if freq =? 0 then None
  else if n mod freq =? 0 then
    let* r := nth_error (rs_rewards e) 0 in
    let* x := nth_error (rs_infos e) 0 in
    let better := match lg_max s with None => true | Some (_, b) => Qltb b r end in
    Some (RLog n (if better then Some (x, r) else lg_max s)
               (if better then Some (match m with Mmax => r | Mmin => - r end)%Q else lg_best s)
               (lg_r s ++ [match m with Mmax => r | Mmin => - r end])%Q
               (lg_x s ++ [x]))
  else Some (RLog n (lg_max s) (lg_best s) (lg_r s) (lg_x s)).

Fixpoint log_run {X} (m : mode) (freq : nat) (s : rlog X) (es : list (rlstep X)) : option (rlog X) :=
  match es with
  | [] => Some s
  | e :: r => let* s' := log_step m freq s e in log_run m freq s' r
  end.

(** neorlcalls.py:343-350 calc_cumavg: [data[i:i+N] for i in range(0, len(data), N)] and the mean,
    maximum and minimum of each group (standard deviations are not modelled).  [fuel] is the number
    of groups still allowed; len(data) suffices. *)
Fixpoint groups {A} (fuel N : nat) (l : list A) : list (list A) :=
  match fuel with
  | O => []
  | S k => match l with [] => [] | _ => firstn N l :: groups k N (skipn N l) end
  end.
Definition qmean (l : list Q) : Q := (fold_right Qplus 0 l / inject_Z (Z.of_nat (length l)))%Q.
Definition calc_cumavg (data : list Q) (N : nat) : option (list Q * list (option (nat * Q)) * list (option (nat * Q))) :=
  if N =? 0 then None   (* range() arg 3 must not be zero *)
  else let gs := groups (length data) N data in
       Some (map qmean gs, map argmax gs, map argmin gs).

(* ---------- neorl/hybrid/ackde.py, neorl/hybrid/ppoes.py ---------- *)

(** ackde.py:40-50 (= ppoes.py:44-54) encode_grid_individual_to_discrete: tuple.index, the first
    position of an equal choice (ValueError when there is none). *)
Fixpoint index_of (v : val) (cs : list val) : option nat :=
  match cs with
  | [] => None
  | c :: r => if veqb c v then Some 0 else option_map S (index_of v r)
  end.
Fixpoint index_encode (b : space) (x : list val) : option (list val) :=
  match b with
  | [] => Some []
  | (_, pr) :: r =>
      match x with
      | [] => None
      | v :: xs =>
          let* w := match pr with
                    | PGrid cs => let* n := index_of v cs in Some (VNum (inject_Z (Z.of_nat n)))
                    | _ => Some v
                    end in
          let* ws := index_encode r xs in Some (w :: ws)
      end
  end.

Definition has_grid (b : space) : bool :=
  existsb (fun kp => match snd kp with PGrid _ => true | _ => false end) b.

Section Learn.
Context (order : list Q -> list nat).

(** ackde.py:164-173: the table of individuals and scores sorted from best to worst. *)
Definition sorted_df (m : mode) (rows : list (list val * Q)) : option (list (list val * Q)) :=
  let keys := match m with Mmin => map snd rows | Mmax => map (fun r => - snd r)%Q rows end in
  traverse (fun _ i => nth_error rows i) 0 (order keys).

(** ackde.py:116-191 learn (= ppoes.py:120-205) on the log of the RL run: the two modes must agree;
    the first [rl_filter] rows are kept; grid values are replaced by their positions. *)
Definition rl_learn (m env_mode : mode) (b : space) (lx : list (list val)) (lr : list Q) (rl_filter : nat)
  : option (list (list val)) :=
  match m, env_mode with
  | Mmin, Mmax | Mmax, Mmin => None     (* ValueError, ackde.py:148-149 *)
  | _, _ =>
      if length lx =? length lr then
        let* df := sorted_df m (combine lx lr) in
        let data := map fst (if length df <? rl_filter then df else firstn rl_filter df) in
        if has_grid b then traverse (fun _ x => index_encode b x) 0 data else Some data
      else None
  end.
End Learn.

(** ackde.py:208-215: with init_pop_rl, npop rows drawn with replacement (random.randint(0, -1)
    raises on an empty table) become x0. *)
Definition rl_x0 (npop : nat) (data : list (list val)) (draw : nat -> nat) : option (list (list val)) :=
  traverse (fun _ i => choice data (draw i)) 0 (seq 0 npop).

(** de.py:143-164 InitPopulation with x0 (es.py:143-183 init_pop is the same): every individual is
    checked against the user's bounds, then its grid values are encoded. *)
Definition nums (x : list val) : option (list Q) :=
  traverse (fun _ v => match v with VNum q => Some q | VStr _ => None end) 0 x.
Definition init_x0 (b : space) (x0 : list (list val)) : option (list (list Q)) :=
  traverse (fun _ x =>
    if check_mixed_individual x b then
      (if has_grid b then let* e := encode_grid_indv_to_discrete x b (snd (encode_grid_to_discrete b)) in nums e
       else nums x)
    else None) 0 x0.

(** ackde.py:73 / ppoes.py:78: the constructor's assertion. *)
Definition rl_accepts (npop npop_rl : nat) : bool := npop_rl <? npop.

(** The object between calls: the data of the last learn that succeeded.  (The flag ACKTR_RUN_FLAG
    is set at the start of learn, ackde.py:126, so after a failed first learn evolute passes the
    flag test and then fails on the missing attribute [data].) *)
Inductive rlcall : Type :=
| CLearn (env_mode : mode) (lx : list (list val)) (lr : list Q) (rl_filter : nat)
| CEvolute.

(** One call: what it leaves, and the data handed to the optimizer ([None]: it raised). *)
Definition rl_call (order : list Q -> list nat) (m : mode) (b : space) (st : option (list (list val))) (c : rlcall)
  : option (list (list val)) * option (list (list val)) :=
  match c with
  | CLearn em lx lr f => match rl_learn order m em b lx lr f with
                         | Some d => (Some d, Some d)
                         | None => (st, None)
                         end
  | CEvolute => (st, st)
  end.
Fixpoint rl_calls order m b st cs : list (option (list (list val))) :=
  match cs with
  | [] => []
  | c :: r => let '(st', o) := rl_call order m b st c in o :: rl_calls order m b st' r
  end.

(* ---------- neorl/evolu/de.py in RL-informed mode ---------- *)

(** Replace position by position (later assignments win). *)
Fixpoint assign {A} (l : list A) (ws : list (nat * A)) : list A :=
  match ws with [] => l | (i, a) :: r => assign (set_nth l i a) r end.

(** random.sample(range(RLdata.shape[0]), npop_rl), then the rows. *)
Definition rl_rows (data : list (list Q)) (n : nat) (draw : nat -> nat) : option (list (list Q)) :=
  let* ix := sample (seq 0 (length data)) (map draw (seq 0 n)) in
  traverse (fun _ i => nth_error data i) 0 ix.

(** de.py:204-213 mix_population: argsort()[:npop_rl] is overwritten. *)
Definition de_mix (order : list Q -> list nat) (data : list (list Q)) (n : nat) (draw : nat -> nat)
  (pop : list (list Q)) (scores : list Q) : option (list (list Q)) :=
  let* rows := rl_rows data n draw in
  Some (assign pop (combine (firstn n (order scores)) rows)).

Section DE.
Context (order : list Q -> list nat) (expf : Q -> Q) (m : mode) (fit : list Q -> Q) (p : de_par) (ngen : nat)
  (data : list (list Q)) (n : nat).

(** de.py:238-326 with RLmode: the generation of DE_Model followed by mix_population. *)
Definition rde_gen (drs : nat -> de_draw) (draw : nat -> nat) (st : de_state) : option de_state :=
  let* st1 := de_gen expf m fit p ngen drs st in
  let* pop := de_mix order data n draw (ds_pop st1) (ds_scores st1) in
  Some (DeSt pop (ds_best st1) (ds_hist st1) (ds_scores st1) (ds_seen st1)).

Fixpoint rde_gens (drs : nat -> nat -> de_draw) (draw : nat -> nat -> nat) (g todo : nat) (st : de_state) : option de_state :=
  match todo with
  | O => Some st
  | S t => let* st' := rde_gen (drs g) (draw g) st in rde_gens drs draw (S g) t st'
  end.

(** de.py:216-378 evolute in RL-informed mode; last_pop pairs the population left by
    mix_population with the scores computed before it (de.py:362-366). *)
Definition rde_evolute (drs : nat -> nat -> de_draw) (draw : nat -> nat -> nat) (init : list (list Q)) : option de_result :=
  let* st := rde_gens drs draw 0 ngen (DeSt init None [] [] []) in
  let* '(x, y) := ds_best st in
  let hist := map (as_max m) (ds_hist st) in
  Some (DeRes x (as_max m y) hist
          (accumulate (match m with Mmin => qmin2 | Mmax => qmax2 end) hist)
          (ds_pop st) (map (as_max m) (ds_scores st)) (ds_seen st)).
End DE.

(* ---------- neorl/evolu/es.py in RL-informed mode ---------- *)

(** es.py:408-424 mix_population (kbs_append is the constant False): member last_index-i gets the
    i-th sampled row as its individual and keeps its strategy and its fitness; a negative index is a
    KeyError. *)
Fixpoint es_put (i : nat) (rows : list (list Q)) (pop : list member) : option (list member) :=
  match rows with
  | [] => Some pop
  | x :: r =>
      if length pop <=? i then None
      else let k := length pop - 1 - i in
           let* b := nth_error pop k in
           es_put (S i) r (set_nth pop k (Mem x (m_strat b) (m_fit b)))
  end.
Definition es_mix (data : list (list Q)) (n : nat) (draw : nat -> nat) (pop : list member) : option (list member) :=
  let* rows := rl_rows data n draw in
  match pop with [] => None | _ => es_put 0 rows pop end.

Section ES.
Context (expf : Q -> Q) (tau tau' : nat -> Q) (m : mode) (fit : list Q -> Q) (p : es_par)
  (data : list (list Q)) (n : nat).

(** es.py:448-483, one generation with RLmode: selection, mix_population, then the best. *)
Definition res_gen (drs : nat -> odraw) (draw : nat -> nat) (st : es_state) : option es_state :=
  let* os := GenOffspring expf tau tau' p drs (es_pop st) in
  let* pop' := es_mix data n draw (select (map (evaluate m fit) os) (p_mu p)) in
  let* '(k, v) := argmax (map m_fit pop') in
  let* b := nth_error pop' k in
  Some (EsSt pop'
          (match es_best st with
           | None => Some (m_ind b, v)
           | Some (x, y) => if Qltb y v then Some (m_ind b, v) else Some (x, y)
           end)
          (es_scores st ++ [v]) (es_seen st ++ map fst os)).

Fixpoint res_gens (drs : nat -> nat -> odraw) (draw : nat -> nat -> nat) (g todo : nat) (st : es_state) : option es_state :=
  match todo with
  | O => Some st
  | S t => let* st' := res_gen (drs g) (draw g) st in res_gens drs draw (S g) t st'
  end.

(** es.py:426-533 evolute in RL-informed mode. *)
Definition res_evolute (drs : nat -> nat -> odraw) (draw : nat -> nat -> nat) (init : list (list Q * list Q)) (ngen : nat)
  : option es_result :=
  let* st := res_gens drs draw 0 ngen (es_start m fit init) in
  let* '(x, y) := es_best st in
  let scores := map (as_max m) (es_scores st) in
  Some (EsRes x (as_max m y) scores
          (accumulate (match m with Mmin => qmin2 | Mmax => qmax2 end) scores)
          (map fst init) (es_seen st)).
End ES.

(* ---------- neorl/hybrid/ackde.py evolute, neorl/hybrid/ppoes.py evolute ---------- *)

(** de.py:78-97 / es.py:97-118: the numeric space after grid variables became integers. *)
Definition space_dim (pr : param) : dimn :=
  match encode_param pr with
  | PInt lo hi => Dim true lo hi
  | PFloat lo hi => Dim false lo hi
  | PGrid _ => Dim true 0 0
  end.
Definition space_dims (b : space) : list dimn := map (fun kp => space_dim (snd kp)) b.

(** ackde.py:193-226 evolute after learn: with init_pop_rl x0 is drawn from the data, otherwise DE
    draws its initial population itself (de.py:159-163); DE is called with int_transform =
    'nearest_int' and asserts npop > 4 (de.py:59). *)
Definition ackde_evolute (order : list Q -> list nat) (expf : Q -> Q) (m : mode) (fit : list Q -> Q) (b : space)
  (npop npop_rl : nat) (init_pop_rl : bool) (F CR : Q) (ngen : nat) (data : option (list (list val)))
  (x0draw : nat -> nat) (gu : nat -> nat -> Q) (gk : nat -> nat -> nat)
  (drs : nat -> nat -> de_draw) (draw : nat -> nat -> nat) : option de_result :=
  let* d := data in
  if rl_accepts npop npop_rl && (4 <? npop) then
    let* init := (if init_pop_rl then let* x0 := rl_x0 npop d x0draw in init_x0 b x0
                  else Some (map (fun i => gen_indv (space_dims b) (gu i) (gk i)) (seq 0 npop))) in
    let* rows := traverse (fun _ x => nums x) 0 d in
    rde_evolute order expf m fit (DePar (space_dims b) npop F CR NearestInt) ngen rows npop_rl drs draw init
  else None.

(** ppoes.py:114-122, 229-231: the ES that PPOES builds from its hyperparameters.  [alpha] is read
    from the user's dictionary but not passed on: ES uses its default 0.5 (es.py:51). *)
Record ppo_par : Type := PpoPar {
  pp_npop : nat; pp_mu : option nat; pp_blend : bool; pp_alpha : Q; pp_cxpb : Q; pp_mutpb : Q; pp_smin : Q; pp_smax : Q }.
Definition ppoes_es (b : space) (h : ppo_par) : es_par :=
  EsPar (space_dims b) (match pp_mu h with Some k => k | None => pp_npop h / 2 end) (pp_npop h)
    (pp_blend h) (1#2) (pp_cxpb h) (pp_mutpb h) (pp_smin h) (pp_smax h) true.

(** es.py:165-183 and GenES 120-141: an initial member is an individual with a strategy drawn
    uniformly from [smin, smax]. *)
Definition es_strategy (p : es_par) (u : nat -> Q) : list Q :=
  map (fun i => p_smin p + u i * (p_smax p - p_smin p))%Q (seq 0 (length (p_dims p))).

(** ppoes.py:205-238 evolute after learn (the assertions of ES are es.py:93-94). *)
Definition ppoes_evolute (expf : Q -> Q) (tau tau' : nat -> Q) (m : mode) (fit : list Q -> Q) (b : space) (h : ppo_par)
  (npop_rl : nat) (init_pop_rl : bool) (ngen : nat) (data : option (list (list val)))
  (x0draw : nat -> nat) (gu : nat -> nat -> Q) (gk : nat -> nat -> nat) (su : nat -> nat -> Q)
  (drs : nat -> nat -> odraw) (draw : nat -> nat -> nat) : option es_result :=
  let* d := data in
  let p := ppoes_es b h in
  if rl_accepts (pp_npop h) npop_rl && (p_mu p <=? p_lambda p) && Qle_bool (p_cxpb p + p_mutpb p) 1 then
    let* ind := (if init_pop_rl then let* x0 := rl_x0 (pp_npop h) d x0draw in init_x0 b x0
                 else Some (map (fun i => gen_indv (space_dims b) (gu i) (gk i)) (seq 0 (pp_npop h)))) in
    let* rows := traverse (fun _ x => nums x) 0 d in
    res_evolute expf tau tau' m fit p rows npop_rl drs draw
      (combine ind (map (fun i => es_strategy p (su i)) (seq 0 (pp_npop h)))) ngen
  else None.
