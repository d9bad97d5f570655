(** Model of the runs of NSGA-II and NSGA-III: neorl/multi/nsgaII.py:139-331 and
    neorl/multi/nsgaIII.py:170-370 (GenOffspring, evolute); the two differ only in select.

    GenOffspring is the code of neorl/evolu/es.py:340-406 except that the offspring are keyed
    from len(pop) on and that the parents survive, so the model of one offspring is ES's
    ([gen_one]).  As for ES: individuals are points of the encoded numeric space, the grid
    decoding of fit_worker (nsgaII.py:89-101) is part of the arbitrary fitness function,
    parallel evaluation keeps the order, RL-informed mode is not modelled.  In NSGA-III the
    geometry (find_extreme_points, find_intercepts, associate_to_niche) only produces for
    each member a niche and a distance: both are arbitrary here. *)
From Coq Require Import List Arith ZArith QArith Bool.
From Verif Require Import Base Space_Model Opt_Model ES_Model ND_Model NDL_Model.
Import ListNotations.
Open Scope nat_scope.

(** A member of the population dictionary: [individual, strategy, reward vector]. *)
Record nind : Type := NInd { q_x : list Q; q_s : list Q; q_v : list Q }.
Definition q_none : nind := NInd [] [] [].

(** Which selection: NSGA-II, or NSGA-III with the number of reference points and, for each
    generation and each list of reward vectors (in the order of the fronts), niche and
    distance of each member, and the shuffles of that generation. *)
Inductive nsga_alg : Type :=
| NSGA2
| NSGA3 (nref : nat) (niche : nat -> list (list Q) -> nat -> nat) (dist : nat -> list (list Q) -> nat -> Q)
        (shuffle : nat -> nat -> list nat -> list nat).

(** nsgaII.py:112-119, 262-265: the sort selected by [sorting]. *)
Definition nd_fronts (log : bool) (ws : list (list Q)) (k : nat) : outcome (list (list nat)) :=
  if log then sortLogNondominated ws k
  else match sortNondominated ws k with Some fs => Done fs | None => Fuel end.

(** nsgaII.py:103-138, nsgaIII.py:106-169 select: positions of the chosen members. *)
Definition nsga_select (alg : nsga_alg) (g : nat) (log : bool) (ws : list (list Q)) (k : nat) : outcome (list nat) :=
  obind (nd_fronts log ws k) (fun fronts =>
  match alg with
  | NSGA2 => match select2 ws fronts k with Some l => Done l | None => Raise end
  | NSGA3 nref niche dist shuffle =>
      let vs := map (fun i => nth i ws []) (concat fronts) in
      select3 nref (niche g vs) (dist g vs) (shuffle g) fronts k
  end).

(** Column [f] of the reward vectors of a front. *)
Definition column (front : list nind) (f : nat) : list Q := map (fun i => coord f (q_v i)) front.

(** nsgaII.py:279-287, objective [f]: [old] is y_opt[f] ([None]: -inf). *)
Definition y_update (m : mode) (old : option Q) (mn : Q) : option Q :=
  match old with
  | None => Some mn
  | Some y => match m with
              | Mmin => if Qltb y (- mn) then Some mn else Some y
              | Mmax => if Qltb y mn then Some mn else Some y
              end
  end.

(** State of evolute: population, y_opt, x_opt_correct, front of the current population, and
    (ghost) the points evaluated so far and whether some generation had more nondominated
    members than places. *)
Record nsga_state : Type := NsSt {
  s_pop : list nind; s_y : list (option Q); s_x : list (list Q); s_front : list nind;
  s_seen : list (list Q); s_cut : bool }.

Section NSGA.
Context (expf : Q -> Q) (tau tau' : nat -> Q).
Context (m : mode) (fit : list Q -> list Q) (p : es_par) (alg : nsga_alg) (sort_log : bool).

(** nsgaII.py:139-204 GenOffspring: the parents (reproduction repairs one in place) and the
    offspring. *)
Fixpoint nsga_loop (drs : nat -> odraw) (k todo : nat) (pop : list member)
  : option (list member * list (list Q * list Q)) :=
  match todo with
  | O => Some (pop, [])
  | S t => match gen_one expf tau tau' p (drs k) pop with
           | None => None
           | Some (pop', o) => match nsga_loop drs (S k) t pop' with
                               | Some (pop'', os) => Some (pop'', o :: os)
                               | None => None
                               end
           end
  end.
Definition nsga_clip (o : list Q * list Q) : list Q * list Q :=
  if p_clip p then (fst o, map (np_clip (p_smin p) (p_smax p)) (snd o)) else o.

(** nsgaII.py:70-101: the wrapped reward vector. *)
Definition reward (x : list Q) : list Q := map (as_max m) (fit x).
Definition nsga_eval (o : list Q * list Q) : nind := NInd (fst o) (snd o) (reward (fst o)).

(** nsgaII.py:228-231: one objective switches to the standard sort. *)
Definition use_log (pop : list nind) : bool :=
  sort_log && negb (length (q_v (nth 1 pop q_none)) =? 1).

(** nsgaII.py:276-300: what is recorded from the front of the new population. *)
Definition nsga_report (log : bool) (pop : list nind) (ys : list (option Q)) (seen : list (list Q)) (cut : bool)
  : outcome nsga_state :=
  obind (nd_fronts log (map q_v pop) (length pop)) (fun fs =>
  match fs with
  | [] => Raise
  | F :: _ =>
      let front := map (fun i => nth i pop q_none) F in
      let nobj := length (q_v (nth 0 front q_none)) in
      let mins := map (fun f => match argmin (column front f) with Some kv => kv | None => (0, 0%Q) end) (seq 0 nobj) in
      Done (NsSt pop (map2 (fun old kv => y_update m old (snd kv)) ys mins)
              (map (fun kv => q_x (nth (fst kv) front q_none)) mins) front seen cut)
  end).

(** nsgaII.py:232-300, generation [g]. *)
Definition nsga_gen (log : bool) (g : nat) (drs : nat -> odraw) (st : nsga_state) : outcome nsga_state :=
  let pop := s_pop st in
  match nsga_loop drs 0 (p_lambda p) (map (fun i => Mem (q_x i) (q_s i) 0) pop) with
  | None => Raise
  | Some (pop', os) =>
      let off := map nsga_eval (map nsga_clip os) in
      let par := map2 (fun b i => NInd (m_ind b) (m_strat b) (q_v i)) pop' pop in
      (* offspring.update(self.population): the offspring come first *)
      let all := off ++ par in
      let ws := map q_v all in
      obind (nd_fronts log ws (length ws)) (fun fs =>   (* ghost: how many are nondominated *)
      obind (nsga_select alg g log ws (p_mu p)) (fun sel =>
      nsga_report log (map (fun i => nth i all q_none) sel) (s_y st)
        (s_seen st ++ map fst os) (s_cut st || (p_mu p <? length (hd [] fs)))))
  end.

Fixpoint nsga_gens (log : bool) (drs : nat -> nat -> odraw) (g todo : nat) (st : nsga_state) : outcome nsga_state :=
  match todo with
  | O => Done st
  | S t => obind (nsga_gen log g (drs g) st) (nsga_gens log drs (S g) t)
  end.

(** nsgaII.py:207-331 evolute from the given individuals and strategies: final state; with
    ngen = 0 the front is an undefined name. *)
Definition nsga_start (init : list (list Q * list Q)) : nsga_state :=
  let pop := map nsga_eval init in
  NsSt pop (map (fun _ => None) (q_v (nth 1 pop q_none))) [] [] (map fst init) false.
Definition nsga_evolute (drs : nat -> nat -> odraw) (init : list (list Q * list Q)) (ngen : nat) : outcome nsga_state :=
  let st := nsga_start init in
  if (length init <? 2) || (ngen =? 0) then Raise else nsga_gens (use_log (s_pop st)) drs 0 ngen st.

(** What evolute returns: x_opt_correct, y_opt_correct, and the history entries global_pop,
    global_fitness (the front of the last population in the user's sign). *)
Definition out_x (st : nsga_state) : list (list Q) := s_x st.
Definition out_y (st : nsga_state) : list Q := map (fun o => match o with Some y => as_max m y | None => 0%Q end) (s_y st).
Definition out_front (st : nsga_state) : list (list Q * list Q) := map (fun i => (q_x i, map (as_max m) (q_v i))) (s_front st).
End NSGA.
