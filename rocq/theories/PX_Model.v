(** Model of PESAX: neorl/hybrid/pesax.py with its three methods neorl/hybrid/pesacore/es.py
    (ESMod), de.py (DEmod) and pso.py (PSOMod), and the replay memory (pesacore/er.py,
    ER_Model.v).  ES and PSO are those of PESA (P1_Model.v), a trial vector of DE is that of PESA2
    (P2_Model.v).

    Individuals are Python lists which the memory, the three populations and the leader of the
    swarm share, and which DE rounds in place: they are references into a heap of vectors
    (P2_Model.v).  Unlike PESA and PESA2, PESAX passes the fitness function to the methods as it
    is: no grid variables, no clipping.  Pools are order-preserving maps; with [ncores > 3] each
    method runs in a process of its own, so what it changes in place is not seen by the parent and
    what it returns are new lists.  Numbers are exact; exp and powers are arbitrary; printing, case
    ids and timing are left out.  An exception is [None]. *)
From Coq Require Import List Arith ZArith QArith Bool.
From Verif Require Import Base Space_Model ER_Model Opt_Model Pop_Model ES_Model PSO_Model DE_Model P2_Model P1_Model.
Import ListNotations.
Open Scope nat_scope.

(** Constructor arguments, pesax.py 70-152: those PESAX has in common with PESA (mode, bounds, npop,
    mu, alpha_init, alpha_end, cxpb, mutpb, c1, c2, speed_mech, ncores; the fields [p1_backdoor]
    and [p1_chi] are not used), and F and CR of DE. *)
Record px_par : Type := PxPar { px_1 : p1_par; px_F : Q; px_CR : Q }.

(** DEmod, pesacore/de.py 52-68: int_transform is left at 'nearest_int' (pesax.py 212-213). *)
Definition px_2 (p : px_par) : p2_par :=
  P2Par (p1_dims (px_1 p)) NearestInt (p1_npop (px_1 p)) 1 1 (px_F p) (px_CR p) 0 (p1_alpha0 (px_1 p)) (p1_alpha1 (px_1 p)) (p1_proc (px_1 p)).

(** Draws of one generation: ES offspring, DE individuals, PSO particles, replay indices for ES,
    PSO and DE, strategies of replayed ES members (uniform draws in [0,1]). *)
Record px_draw : Type := PxDraw {
  x_es : nat -> odraw; x_de : nat -> de_draw; x_pso : nat -> pdraw;
  x_res : nat -> nat; x_rpso : nat -> nat; x_rde : nat -> nat; x_str : nat -> nat -> Q }.

(** An ES member: individual, strategy, fitness.  A particle: position, speed, fitness, local best
    and its fitness. *)
Record xmem : Type := XMem { xm_ind : ref; xm_strat : list Q; xm_fit : Q }.
Record xpar : Type := XPar { xp_pos : ref; xp_vel : list Q; xp_fit : Q; xp_lpos : ref; xp_lfit : Q }.

(** Reading a population, and turning one that a method returns into new lists (pso.py deep-copies
    the survivors; es.py makes every offspring a new list). *)
Definition get_mem (h : heap) (a : xmem) : member := Mem (h_get h (xm_ind a)) (xm_strat a) (xm_fit a).
Definition get_par (h : heap) (a : xpar) : par1 := Par1 (h_get h (xp_pos a)) (xp_vel a) (xp_fit a) (h_get h (xp_lpos a)) (xp_lfit a).
Definition new_mems (h : heap) (l : list member) : heap * list xmem :=
  let '(h', rs) := h_new h (map m_ind l) in
  (h', map2 (fun r a => XMem r (m_strat a) (m_fit a)) rs l).
Definition new_pars (h : heap) (l : list par1) : heap * list xpar :=
  let '(h1, rs) := h_new h (map q_pos l) in
  let '(h2, ls) := h_new h1 (map q_lpos l) in
  (h2, map2 (fun r a => a r) rs (map2 (fun r a => fun pos => XPar pos (q_vel a) (q_fit a) r (q_lfit a)) ls l)).

Section PX.
Context (expf : Q -> Q) (tau tau' : nat -> Q) (pwf : Q -> Q -> Q) (m : mode) (fit : list Q -> Q) (p : px_par).
Local Notation p1 := (px_1 p).

(** pesax.py 84-93: the function every method maximises. *)
Definition px_score (x : list Q) : Q := p1_score m fit x.

(** DEmod.evolute with ngen = 1, pesacore/de.py 152-290: all trial vectors first, then the
    evaluations, then the selection.  Population with scores, and (ghost) evaluated points. *)
Definition px_de (drs : nat -> de_draw) (h : heap) (x0 : list ref) : option (heap * list (ref * Q) * list (list Q)) :=
  if negb (length x0 =? p1_npop p1) then None else
  let* '(h1, trials) := iter_steps (hde_one expf (px_2 p) 1 x0) h (map (fun j => (j, drs j)) (seq 0 (p1_npop p1))) in
  let sc r := px_score (h_get h1 r) in
  let pop := map2 (fun t v => if Qltb (sc t) (sc v) then (v, sc v) else (t, sc t)) x0 trials in
  let seen := map (h_get h1) (trials ++ x0) in
  if p1_proc p1
  then let '(h2, rs) := h_new h (map (fun rq => h_get h1 (fst rq)) pop) in Some (h2, combine rs (map snd pop), seen)
  else Some (h1, pop, seen).

(** One call [self.mymemory.sample(batch_size=k, mode='prior', alpha=...)]. *)
Definition px_replay (alpha : Q) (mem : p2_mem) (k : nat) (draw : nat -> nat) : option (p2_mem * list (ref * Q)) :=
  let* '(mem', l) := sample_prior (fun x => pwf x alpha) mem (map (fun i => draw i mod length (store mem)) (seq 0 k)) in
  Some (mem', map (fun a => (sx a, obj a)) l).

(** pesax.py 391-401 memory_update: survivors of DE, ES, PSO, all with the label 'na'. *)
Definition px_update (h : heap) (mem : p2_mem) (d : list (ref * Q)) (es : list xmem) (sw : list xpar) : option p2_mem :=
  let* m1 := p2_add h mem Lna d in
  let* m2 := p2_add h m1 Lna (map (fun a => (xm_ind a, xm_fit a)) es) in
  p2_add h m2 Lna (map (fun a => (xp_pos a, xp_fit a)) sw).

(** pesax.py 414-420 and 422-434: replayed samples as ES members (new strategies) and particles. *)
Definition px_member (str : nat -> nat -> Q) (i : nat) (a : ref * Q) : xmem :=
  XMem (fst a) (map (fun k => p1_smin p1 + (p1_smax - p1_smin p1) * str i k)%Q (seq 0 (length (p1_dims p1)))) (snd a).
Fixpoint px_members (str : nat -> nat -> Q) (i : nat) (l : list (ref * Q)) : list xmem :=
  match l with [] => [] | a :: r => px_member str i a :: px_members str (S i) r end.
Definition px_particle (h : heap) (a : ref * Q) : xpar :=
  XPar (fst a) (map (fun q => (1 # 10) * q)%Q (h_get h (fst a))) (snd a) (fst a) (snd a).

(** pesax.py 403-444 resample: each method keeps its survivors and is filled up from the memory. *)
Definition px_resample (h : heap) (alpha : Q) (dr : px_draw) (mem : p2_mem) (es : list xmem) (sw : list xpar) (d : list (ref * Q))
  : option (p2_mem * list xmem * list xpar * list ref) :=
  let* '(m1, re) := px_replay alpha mem (p1_mu p1) (x_res dr) in
  let* '(m2, rp) := px_replay alpha m1 (p1_npop p1 - p1_mu p1) (x_rpso dr) in
  let* '(m3, rd) := px_replay alpha m2 (p1_npop p1 - p1_mu p1) (x_rde dr) in
  Some (m3, es ++ px_members (x_str dr) 0 re, sw ++ map (px_particle h) rp, map fst d ++ map fst rd).

(** What one generation reads and writes; ghosts: exponents and inertia weights used, evaluated
    points. *)
Record px_state : Type := PxSt {
  y_heap : heap; y_mem : p2_mem; y_pop : list xmem; y_de : list ref; y_swarm : list xpar; y_lead : ref; y_lfit : Q;
  y_w : Q; y_step : nat; y_alpha : Q; y_best : option (ref * Q); y_hist : list Q;
  y_alphas : list Q; y_ws : list Q; y_seen : list (list Q) }.

(** pesax.py 233-345, one generation, in the order of the serial branch: ES, DE, PSO.  (In
    processes each method reads the lists as they were at the start of the generation; DE then
    changes none of them.)  pso.py 345-374 replaces the leader by a copy of a better position, and
    otherwise keeps the list it had. *)
Definition px_gen (steps : nat) (drs : nat -> px_draw) (g : nat) (st : px_state) : option px_state :=
  let dr := drs g in
  let* '(es, s1) := es_mod expf tau tau' m fit p1 (x_es dr) (map (get_mem (y_heap st)) (y_pop st)) in
  let '(h1, xes) := new_mems (y_heap st) es in
  let* '(h2, dp, s2) := px_de (x_de dr) h1 (y_de st) in
  let* '(sw, pb, w, s3) := pso_mod expf m fit p1 (y_step st) steps (x_pso dr) (y_w st) (h_get h2 (y_lead st)) (y_lfit st)
                             (map (get_par h2) (y_swarm st)) in
  let '(h3, xsw) := new_pars h2 sw in
  let '(h4, lead) := if Qltb (y_lfit st) (snd pb) then (h3 ++ [fst pb], length h3) else (h3, y_lead st) in
  let step := y_step st + p1_npop p1 in
  let d := p2_select dp (p1_mu p1) in
  let* mem1 := px_update h4 (y_mem st) d xes xsw in
  let* '(mem2, npop, nswarm, nde) := px_resample h4 (y_alpha st) dr mem1 xes xsw d in
  let '(mem3, top) := sample_greedy mem2 1 in
  let* b := nth_error top 0 in
  Some (PxSt h4 mem3 npop nde nswarm lead (snd pb) w step (linear_anneal step steps (p1_alpha0 p1) (p1_alpha1 p1))
          (Some (sx b, obj b)) (y_hist st ++ [obj b]) (y_alphas st ++ [y_alpha st]) (y_ws st ++ [y_w st])
          (y_seen st ++ s1 ++ s2 ++ s3)).

(** pesax.py 155-228, up to the loop.  [init]: the warm-up points with their strategies (es.py
    110-159): the points of x0 as they are when x0 is given (a non-empty list), otherwise random
    individuals.  All methods work on deep copies of the best of them (pesax.py 223-226, init_guess
    446-493); the leader of the swarm is the list of the best warm-up point itself.  Assertions:
    pesax.py 124, 182, 186, es.py 73-75, de.py 57. *)
Definition px_start (attr : option nat) (ngen : nat) (given : bool) (init : list (list Q * list Q)) : option px_state :=
  if (1 <=? ngen) && (if given then p1_npop p1 <=? length init else p1_npop p1 <? length init)
     && Qle_bool (p1_cxpb p1 + p1_mutpb p1) 1 && (4 <? p1_npop p1)
     && match p1_muarg p1 with Some (S k) => S k <? p1_npop p1 | _ => true end
  then
    let '(h, rs) := h_new [] (map fst init) in
    let pop0 := map2 (fun r o => XMem r (snd o) (px_score (fst o))) rs init in
    let* mem := p2_add h (new_memory (p2_size attr (ngen * p1_npop p1))) Lna (map (fun a => (xm_ind a, xm_fit a)) pop0) in
    let best := firstn (p1_npop p1) (Opt_Model.sort_desc xm_fit pop0) in
    let* top := nth_error best 0 in
    let vecs := map (fun a => h_get h (xm_ind a)) best in
    let '(h1, r1) := h_new h vecs in
    let '(h2, r2) := h_new h1 vecs in
    let '(h3, r3) := h_new h2 vecs in
    let '(h4, r4) := h_new h3 vecs in
    Some (PxSt h4 mem (map2 (fun r a => XMem r (xm_strat a) (xm_fit a)) r1 best) r2
            (map2 (fun l a => let q := px_particle h (xm_ind a, xm_fit a) in XPar (fst l) (xp_vel q) (xp_fit q) (snd l) (xp_lfit q)) (combine r3 r4) best)
            (xm_ind top) (xm_fit top) (9#10)%Q 1 (p1_alpha0 p1) None [] [] [] (map fst init))
  else None.

(** Returned individual, value and history; the memory_size attribute left behind; ghosts. *)
Record px_result : Type := PxRes {
  px_x : list Q; px_y : Q; px_hist : list Q; px_size : option nat;
  px_alphas : list Q; px_ws : list Q; px_seen : list (list Q) }.

(** pesax.py 155-351 evolute; [attr] is the attribute self.memory_size (constructor argument, or
    what line 337 left there; lines 170-173 read it). *)
Definition px_evolute (attr : option nat) (ngen : nat) (given : bool) (drs : nat -> px_draw) (init : list (list Q * list Q)) : option px_result :=
  let* st0 := px_start attr ngen given init in
  let* st := gens (px_gen (ngen * p1_npop p1) drs) 0 ngen st0 in
  let* '(r, y) := y_best st in
  Some (PxRes (h_get (y_heap st) r) (as_max m y) (map (as_max m) (y_hist st)) (Some (length (store (y_mem st))))
          (y_alphas st) (y_ws st) (y_seen st)).

(** A second evolute call on the same object. *)
Definition px_twice (attr : option nat) (n1 : nat) (d1 : nat -> px_draw) (g1 : bool) (i1 : list (list Q * list Q))
    (n2 : nat) (d2 : nat -> px_draw) (g2 : bool) (i2 : list (list Q * list Q)) : option (px_result * px_result) :=
  let* a := px_evolute attr n1 g1 d1 i1 in
  let* b := px_evolute (px_size a) n2 g2 d2 i2 in
  Some (a, b).
End PX.
