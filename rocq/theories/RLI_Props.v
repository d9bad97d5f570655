(** C64 - C67: the RL logger and the RL-informed optimizers. *)
From Coq Require Import String List Arith ZArith QArith Bool Permutation.
From Verif Require Import Base Space_Model Space_Spec Opt_Model Opt_Spec DE_Model DE_Proofs ES_Model ES_Spec RLI_Model RLI_Spec RLI_Log RLI_Learn RLI_DE RLI_ES RLI_End RLI_Demo.
Import ListNotations.
Open Scope nat_scope.

(** The history is what the first environment produced at the calls number f, 2f, 3f, ..., with the
    sign of a minimized fitness restored. *)
Theorem C64_history : forall (X : Type) m freq (es : list (rlstep X)) s, 1 <= freq -> log_run m freq log_init es = Some s ->
  exists ps, Forall2 first_env (every freq es) ps /\ lg_calls s = length es /\
    lg_x s = map fst ps /\ lg_r s = map (fun xr => as_max m (snd xr)) ps.
Proof. exact @log_history. Qed.
Print Assumptions C64_history.

(** When the environment's reward is the fitness (its negation when minimizing), rbest is the best
    fitness of the logged individuals and xbest the first of them that has it. *)
Theorem C64_best : forall (X : Type) m freq (fit : X -> Q) es s, 1 <= freq -> log_run m freq log_init es = Some s ->
  (forall e xr, In e es -> first_env e xr -> snd xr = as_max m (fit (fst xr))) ->
  lg_r s = map (fun x => as_max m (as_max m (fit x))) (lg_x s) /\
  (lg_x s = [] -> lg_max s = None /\ lg_best s = None) /\
  (lg_x s <> [] -> exists x r y, lg_max s = Some (x, r) /\ lg_best s = Some y /\ best_of m fit (lg_x s) x y /\
     exists i, nth_error (lg_x s) i = Some x /\ forall j z, j < i -> nth_error (lg_x s) j = Some z -> ~ (fit z == y)%Q).
Proof. exact @log_best. Qed.
Print Assumptions C64_best.

Example C64_demo : (forall e xr, In e rd_good -> first_env e xr -> snd xr = as_max Mmin ((fun x => x * x) (fst xr))%Q) /\
  log_run Mmin 2 log_init rd_good = Some (RLog 4 (Some (1, -1)) (Some (- (-1))) [- (-1); - (-1)] [1; -1])%Q.
Proof. exact (conj rd_good_fit rd_good_log). Qed.

(** It raises only for check_freq = 0, and then at the first call. *)
Theorem C64_total : forall (X : Type) m freq, freq <> 0 -> forall es : list (rlstep X),
  (forall e, In e es -> rs_rewards e <> [] /\ rs_infos e <> []) -> forall s, exists s', log_run m freq s es = Some s'.
Proof. exact @log_total. Qed.
Print Assumptions C64_total.
Theorem C64_zero_raises : forall (X : Type) m e (es : list (rlstep X)), log_run m 0 log_init (e :: es) = None.
Proof. exact @log_zero. Qed.
Print Assumptions C64_zero_raises.

(** The plotted statistics: consecutive groups of N values, their mean, maximum and minimum. *)
Theorem C64_groups : forall data N a b c, calc_cumavg data N = Some (a, b, c) ->
  exists gs, grouped N data gs /\ length a = length gs /\ length b = length gs /\ length c = length gs /\
  forall i g, nth_error gs i = Some g -> exists av k mx j mn,
    nth_error a i = Some av /\ (av * inject_Z (Z.of_nat (length g)) == fold_right Qplus 0 g)%Q /\
    nth_error b i = Some (Some (k, mx)) /\ greatest g mx /\ nth_error c i = Some (Some (j, mn)) /\ least g mn.
Proof. exact cumavg. Qed.
Print Assumptions C64_groups.
Example C64_groups_demo : exists a b c, calc_cumavg [4; 1; 3; 2; 9]%Q 2 = Some (a, b, c) /\ map Qred a = [5#2; 5#2; 9]%Q /\
  b = [Some (0, 4%Q); Some (0, 3%Q); Some (0, 9%Q)] /\ c = [Some (1, 1%Q); Some (1, 2%Q); Some (0, 9%Q)].
Proof. exact rd_cum. Qed.

(** learn keeps the rl_filter best individuals of the RL run, best first, whatever the order of ties;
    each is stored in encoded form and decodes to itself. *)
Theorem C65_learn : forall order, sorts order -> forall m b lx lr f, dict b -> Forall (valid b) lx -> length lx = length lr ->
  exists data kept rest, rl_learn order m m b lx lr f = Some data /\
    Permutation (combine lx lr) (kept ++ rest) /\ length kept = Nat.min f (length lx) /\
    (forall k r, In k kept -> In r rest -> as_good m (snd k) (snd r)) /\
    (forall i j a c, i <= j -> nth_error kept i = Some a -> nth_error kept j = Some c -> as_good m (snd a) (snd c)) /\
    Forall2 (fun xr d => valid (fst (encode_grid_to_discrete b)) d /\
               exists x, decode_discrete_to_grid d b (snd (encode_grid_to_discrete b)) = Some x /\ same_indv x (fst xr))
      kept data.
Proof. exact learn_spec. Qed.
Print Assumptions C65_learn.
Example C65_learn_demo : sorts argsort /\ dict rd_space /\ Forall (valid rd_space) rd_lx /\
  rl_learn argsort Mmin Mmin rd_space rd_lx [7; 3; 5]%Q 2 = Some [[VNum 4; VNum 0]; [VNum 2; VNum 1]].
Proof. exact (conj argsort_sorts (conj (proj1 rd_lx_ok) (conj (proj2 rd_lx_ok) rd_learn))). Qed.

(** An environment of the other mode is refused. *)
Theorem C65_modes_raises : forall order m em b lx lr f, m <> em -> rl_learn order m em b lx lr f = None.
Proof. exact learn_modes. Qed.
Print Assumptions C65_modes_raises.

(** In any sequence of calls, evolute works on the data of the last learn that succeeded, and raises
    if there was none. *)
Theorem C65_calls : forall order m b cs st k o, nth_error (rl_calls order m b st cs) k = Some o ->
  nth_error cs k = Some CEvolute ->
  (o = st /\ forall j em lx lr f, j < k -> nth_error cs j = Some (CLearn em lx lr f) -> rl_learn order m em b lx lr f = None) \/
  (exists j em lx lr f, j < k /\ nth_error cs j = Some (CLearn em lx lr f) /\ o = rl_learn order m em b lx lr f /\ o <> None /\
     forall i em lx lr f, j < i -> i < k -> nth_error cs i = Some (CLearn em lx lr f) -> rl_learn order m em b lx lr f = None).
Proof. exact calls_spec. Qed.
Print Assumptions C65_calls.
Example C65_calls_demo : rl_calls argsort Mmin rd_space None [CEvolute; CLearn Mmax rd_lx [7;3;5]%Q 2; CLearn Mmin rd_lx [7;3;5]%Q 1; CEvolute] =
  [None; None; Some [[VNum 4; VNum 0]]; Some [[VNum 4; VNum 0]]].
Proof. exact rd_learn_calls. Qed.

(** Without grid parameters, the population initialized from the RL run (init_pop_rl) has npop
    members, all inside the bounds and all among the kept individuals. *)
Theorem C65_initial : forall b npop data draw, has_grid b = false -> data <> [] -> Forall (valid b) data ->
  exists x0 init, rl_x0 npop data draw = Some x0 /\ init_x0 b x0 = Some init /\ length init = npop /\
    Forall (feasible (space_dims b)) init /\ forall v, In v init -> In (map VNum v) data.
Proof. exact init_spec. Qed.
Print Assumptions C65_initial.

(** With a grid parameter whose choices are strings, evolute with init_pop_rl raises on every data:
    the kept rows are already encoded and the optimizer checks them against the original choices. *)
Theorem C65_grid_raises : forall b npop data draw i k pr x0, nth_error b i = Some (k, pr) -> string_grid pr -> 1 <= npop ->
  Forall (valid (fst (encode_grid_to_discrete b))) data -> rl_x0 npop data draw = Some x0 -> init_x0 b x0 = None.
Proof. exact grid_raises. Qed.
Print Assumptions C65_grid_raises.
Example C65_grid_raises_demo : rl_x0 5 [[VNum 4; VNum 0]; [VNum 2; VNum 1]] (fun i => i) <> None /\
  Forall (valid (fst (encode_grid_to_discrete rd_space))) [[VNum 4; VNum 0]; [VNum 2; VNum 1]] /\ string_grid (PGrid [VStr "u"; VStr "v"]%string).
Proof. exact rd_grid_raises. Qed.

(** With numeric grid choices the rows are encoded a second time: the initial population holds
    individuals that the RL run never produced. *)
Theorem C65_grid_refuted : exists order b lx lr data x0 init v x,
  sorts order /\ dict b /\ Forall (valid b) lx /\ rl_learn order Mmin Mmin b lx lr 100 = Some data /\
  rl_x0 5 data (fun i => i) = Some x0 /\ init_x0 b x0 = Some init /\ In v init /\
  decode_discrete_to_grid (map VNum v) b (snd (encode_grid_to_discrete b)) = Some x /\
  forall y, In y lx -> ~ same_indv x y.
Proof. exact rd_twice. Qed.
Print Assumptions C65_grid_refuted.

(** ACKDE on a space without grid parameters never raises after learn; it returns the best
    evaluation, at least as good as every individual drawn from the RL run. *)
Theorem C65_ackde : forall order expf m fit b npop npop_rl irl F CR ngen data x0draw gu gk drs draw,
  sorts order -> has_grid b = false -> wf_dims (space_dims b) -> keeps_ints NearestInt (space_dims b) -> respects fit ->
  4 < npop -> npop_rl < npop -> 1 <= ngen -> data <> [] -> npop_rl <= length data -> Forall (valid b) data ->
  (forall i j, 0 <= gu i j <= 1)%Q ->
  exists r, ackde_evolute order expf m fit b npop npop_rl irl F CR ngen (Some data) x0draw gu gk drs draw = Some r /\
    best_of m fit (dr_seen r) (dr_x r) (dr_y r) /\
    Forall (feasible (space_dims b)) (dr_seen r) /\
    (irl = true -> forall i v, i < npop -> choice data (x0draw i) = Some (map VNum v) -> as_good m (dr_y r) (fit v)) /\
    length (dr_local r) = ngen /\ never_worse m (dr_local r) /\ last (dr_local r) 0%Q = dr_y r.
Proof. exact ackde_run. Qed.
Print Assumptions C65_ackde.
Example C65_ackde_demo : forall expf drs draw, exists r,
  ackde_evolute argsort expf Mmax rd_fit rd_b 5 2 true (1#2) (3#10) 7 (Some rd_data) (fun i => i) (fun _ _ => 0%Q) (fun _ _ => 0) drs draw = Some r /\
  (4 <= dr_y r)%Q /\ feasible (space_dims rd_b) (dr_x r).
Proof. exact rd_ackde. Qed.

(** One generation of RL-informed DE: after the ordinary generation, n individuals that are no better
    than the others are replaced by n different RL rows; the others stay; the recorded best does not
    depend on the replacement. *)
Theorem C66_slots : forall order, sorts order -> forall expf m fit p ngen data n,
  wf_dims (de_dims p) -> keeps_ints (de_method p) (de_dims p) -> respects fit -> n < de_npop p ->
  forall drs draw st st', length (ds_pop st) = de_npop p /\ Forall (feasible (de_dims p)) (ds_pop st) -> rde_gen order expf m fit p ngen data n drs draw st = Some st' ->
  exists st1 slots rows, de_gen expf m fit p ngen drs st = Some st1 /\ ds_best st' = ds_best st1 /\
    NoDup slots /\ length slots = n /\ NoDup rows /\ length rows = n /\
    (forall i, In i slots -> i < de_npop p) /\
    (forall k s r, nth_error slots k = Some s -> nth_error rows k = Some r ->
       exists x, nth_error data r = Some x /\ nth_error (ds_pop st') s = Some x) /\
    (forall i, ~ In i slots -> nth_error (ds_pop st') i = nth_error (ds_pop st1) i) /\
    (forall i j a b, In i slots -> ~ In j slots -> nth_error (ds_pop st1) i = Some a -> nth_error (ds_pop st1) j = Some b ->
       as_good m (fit b) (fit a)) /\
    (forall x y z, ds_best st' = Some (x, y) -> In z (ds_pop st) -> as_good m (as_max m y) (fit z)).
Proof. exact rde_slots. Qed.
Print Assumptions C66_slots.

(** The whole run: the best of all evaluations and of the initial population is returned. *)
Theorem C66_best : forall order, sorts order -> forall expf m fit p ngen data n,
  wf_dims (de_dims p) -> keeps_ints (de_method p) (de_dims p) -> respects fit -> Forall (feasible (de_dims p)) data -> n < de_npop p ->
  forall drs draw init r, length init = de_npop p /\ Forall (feasible (de_dims p)) init -> rde_evolute order expf m fit p ngen data n drs draw init = Some r ->
  best_of m fit (dr_seen r) (dr_x r) (dr_y r) /\
  (forall z, In z init -> as_good m (dr_y r) (fit z)) /\
  Forall (feasible (de_dims p)) (dr_seen r) /\
  length (dr_local r) = ngen /\ never_worse m (dr_local r) /\ last (dr_local r) 0%Q = dr_y r /\
  length (dr_pop r) = de_npop p /\ Forall (feasible (de_dims p)) (dr_pop r) /\ length (dr_fits r) = de_npop p.
Proof. exact rde_best. Qed.
Print Assumptions C66_best.
Theorem C66_total : forall order, sorts order -> forall expf m fit p ngen data n,
  wf_dims (de_dims p) -> keeps_ints (de_method p) (de_dims p) -> respects fit -> Forall (feasible (de_dims p)) data -> n < de_npop p ->
  forall drs draw init, 4 <= de_npop p -> 1 <= ngen -> n <= length data -> length init = de_npop p /\ Forall (feasible (de_dims p)) init ->
  exists r, rde_evolute order expf m fit p ngen data n drs draw init = Some r.
Proof. exact rde_total. Qed.
Print Assumptions C66_total.

(** With fewer kept rows than npop_rl the run raises. *)
Theorem C66_few_raises : forall order expf m fit p ngen data n, n < de_npop p -> forall drs draw init, 1 <= ngen -> length data < n ->
  rde_evolute order expf m fit p ngen data n drs draw init = None.
Proof. exact rde_few. Qed.
Print Assumptions C66_few_raises.

(** The final population (last_pop) shows RL individuals with the fitness of those they replaced. *)
Theorem C66_last_pop_refuted : forall expf, exists order p data n drs draw init ngen r i x y,
  sorts order /\ wf_dims (de_dims p) /\ keeps_ints (de_method p) (de_dims p) /\ respects rd_fit /\ n < de_npop p /\ n <= length data /\
  Forall (feasible (de_dims p)) data /\ (length init = de_npop p /\ Forall (feasible (de_dims p)) init) /\
  rde_evolute order expf Mmax rd_fit p ngen data n drs draw init = Some r /\
  nth_error (dr_pop r) i = Some x /\ nth_error (dr_fits r) i = Some y /\ ~ (y == rd_fit x)%Q.
Proof. exact rd_last. Qed.
Print Assumptions C66_last_pop_refuted.

(** RL-informed ES: mixing replaces the individuals of the last n selected members by n different
    rows; strategies, fitness values and the other members stay. *)
Theorem C67_mix : forall data n draw pop pop', es_mix data n draw pop = Some pop' ->
  n <= length pop /\ length pop' = length pop /\ map m_fit pop' = map m_fit pop /\ map m_strat pop' = map m_strat pop /\
  (forall k, k < length pop - n -> nth_error pop' k = nth_error pop k) /\
  exists rows, NoDup rows /\ length rows = n /\
    forall j r, nth_error rows j = Some r -> exists x b, nth_error data r = Some x /\ nth_error pop' (length pop - 1 - j) = Some b /\ m_ind b = x.
Proof. exact es_mix_spec. Qed.
Print Assumptions C67_mix.

(** While npop_rl < mu the run returns the best of its evaluations, with the usual histories. *)
Theorem C67_best : forall expf tau tau' m fit p data n drs draw init ngen r, n < p_mu p -> p_mu p <= p_lambda p ->
  res_evolute expf tau tau' m fit p data n drs draw init ngen = Some r ->
  best_of m fit (r_seen r) (r_x r) (r_y r) /\
  length (r_local r) = ngen /\ length (r_global r) = ngen /\
  never_worse m (r_global r) /\
  (forall i v, nth_error (r_global r) i = Some v ->
     (forall x, In x (firstn (S i) (r_local r)) -> as_good m v x) /\ In v (firstn (S i) (r_local r))) /\
  (forall v, nth_error (r_global r) (ngen - 1) = Some v -> (v == r_y r)%Q).
Proof. exact res_best. Qed.
Print Assumptions C67_best.

(** Everything evaluated is feasible. *)
Theorem C67_feasible : forall expf tau tau' m fit p data n drs draw init ngen r, wf_dims (p_dims p) -> (p_smin p < p_smax p)%Q ->
  (p_clip p = true \/ p_blend p = false) -> Forall (feasible (p_dims p)) data -> Forall (good_pair p) init ->
  res_evolute expf tau tau' m fit p data n drs draw init ngen = Some r ->
  Forall (feasible (p_dims p)) (r_seen r) /\ length (r_seen r) = ngen * p_lambda p.
Proof. exact res_feasible. Qed.
Print Assumptions C67_feasible.

(** PPOES after learn, on a space without grid parameters, with npop_rl < mu. *)
Theorem C67_ppoes : forall expf tau tau' m fit b h npop_rl irl ngen data x0draw gu gk su drs draw,
  (forall q, 0 < expf q)%Q -> has_grid b = false -> wf_dims (space_dims b) ->
  (0 < pp_smin h)%Q -> (pp_smin h < pp_smax h)%Q -> (pp_smax h <= 1)%Q -> (pp_cxpb h + pp_mutpb h <= 1)%Q ->
  pp_blend h = true \/ 2 <= length b ->
  let mu := match pp_mu h with Some k => k | None => pp_npop h / 2 end in
  2 <= mu -> mu <= pp_npop h -> npop_rl < mu -> 1 <= ngen -> data <> [] -> npop_rl <= length data -> Forall (valid b) data ->
  (forall i j, 0 <= gu i j <= 1)%Q -> (forall i j, 0 <= su i j <= 1)%Q ->
  exists r, ppoes_evolute expf tau tau' m fit b h npop_rl irl ngen (Some data) x0draw gu gk su drs draw = Some r /\
    best_of m fit (r_seen r) (r_x r) (r_y r) /\
    Forall (feasible (space_dims b)) (r_seen r) /\ length (r_seen r) = ngen * pp_npop h /\
    length (r_global r) = ngen /\ never_worse m (r_global r).
Proof. exact ppoes_run. Qed.
Print Assumptions C67_ppoes.
Example C67_ppoes_demo : forall drs draw, exists r,
  ppoes_evolute (fun q => 1 + q * q)%Q (fun _ => 1%Q) (fun _ => 1#2)%Q Mmin rd_fit rd_b rd_h 2 true 3 (Some rd_data) (fun i => i)
    (fun _ _ => 0%Q) (fun _ _ => 0) (fun _ _ => 1#2)%Q drs draw = Some r /\ length (r_seen r) = 18 /\ best_of Mmin rd_fit (r_seen r) (r_x r) (r_y r).
Proof. exact rd_ppoes. Qed.

(** With npop_rl = mu, which the constructor accepts, the returned fitness is not the fitness of the
    returned individual. *)
Theorem C67_all_replaced_refuted : forall expf tau tau', exists npop_rl data draw drs r,
  rl_accepts (pp_npop rd_h4) npop_rl = true /\ npop_rl <= length data /\ Forall (valid rd_b) data /\
  ppoes_evolute expf tau tau' Mmax rd_fit rd_b rd_h4 npop_rl true 1 (Some data) (fun i => i)
    (fun _ _ => 0%Q) (fun _ _ => 0) (fun _ _ => 1#2)%Q drs draw = Some r /\ ~ (r_y r == rd_fit (r_x r))%Q.
Proof. exact rd_all_replaced. Qed.
Print Assumptions C67_all_replaced_refuted.

(** With npop_rl > mu (mu is npop/2 by default), or fewer rows than npop_rl, every run raises. *)
Theorem C67_too_many_raises : forall expf tau tau' m fit p data n drs draw init ngen, 1 <= ngen -> p_mu p < n \/ length data < n ->
  res_evolute expf tau tau' m fit p data n drs draw init ngen = None.
Proof. exact res_raises. Qed.
Print Assumptions C67_too_many_raises.

(** The hyperparameter alpha of PPOES has no effect. *)
Theorem C67_alpha_refuted : forall expf tau tau' m fit b h a npop_rl irl ngen data x0draw gu gk su drs draw,
  ppoes_evolute expf tau tau' m fit b (PpoPar (pp_npop h) (pp_mu h) (pp_blend h) a (pp_cxpb h) (pp_mutpb h) (pp_smin h) (pp_smax h)) npop_rl irl ngen data x0draw gu gk su drs draw =
  ppoes_evolute expf tau tau' m fit b h npop_rl irl ngen data x0draw gu gk su drs draw.
Proof. exact ppoes_alpha. Qed.
Print Assumptions C67_alpha_refuted.
