(** Model of the tuners neorl/tune/estune.py (evolutionary) and neorl/tune/bayestune.py (Bayesian). *)
From Coq Require Import String List Arith ZArith QArith Bool.
From Verif Require Import Base Space_Model Opt_Model ES_Model Env_Model Tune_Model.
Import ListNotations.
Open Scope nat_scope.

(** es.py:93-112: the dimensions after the encoding of grids (discrete.py:104-119).  The types discrete, continuous
    and categorical of estune.py's documentation are not known to ES (GenES raises) and not modelled. *)
Definition dim_of (p : param) : dimn :=
  match encode_param p with PInt lo hi => Dim true lo hi | PFloat lo hi => Dim false lo hi | PGrid _ => Dim true 0 0 end.
Definition dims_of (b : space) : list dimn := map (fun kp => dim_of (snd kp)) b.
Definition code (b : space) (x : list Q) : option (list val) :=
  decode_discrete_to_grid (map VNum x) b (snd (encode_grid_to_discrete b)).

(** estune.py:85-87 the parameters given to ES, with the defaults of es.py:50-51. *)
Definition et_par (b : space) : es_par := EsPar (dims_of b) 10 10 false (1 # 2) (7 # 10) (1 # 4) (1 # 100) (1 # 2) true.

(** es.py:227-239 fit_worker: the fitness of the decoded individual (on a point that cannot be decoded it
    raises KeyError; the value 0 is arbitrary, the theorems show that there is none). *)
Definition et_fit (b : space) (fit : list val -> Q) (x : list Q) : Q := match code b x with Some c => fit c | None => 0%Q end.

Section Evolu.
Context (expf : Q -> Q) (tau tau' : nat -> Q) (m : mode) (fit : list Q -> Q) (p : es_par).

(** es.py:475-478 best_indvs: after each generation the individual with the best value of the new population. *)
Fixpoint et_bests (drs : nat -> nat -> odraw) (g todo : nat) (st : es_state) : list (list Q) :=
  match todo with
  | O => []
  | S t => match es_gen expf tau tau' m fit p (drs g) st with
           | Some st' =>
               match argmax (map m_fit (es_pop st')) with
               | Some (k, _) => match nth_error (es_pop st') k with Some b => m_ind b | None => [] end
               | None => []
               end :: et_bests drs (S g) t st'
           | None => []
           end
  end.
End Evolu.

(** estune.py:66-100 tune: the rows (es.best_indvs, internal coding) and scores (local_fitness) of the table, and
    (ghost) the evaluated initial individuals and offspring. *)
Record et_result : Type := EtRes { et_rows : list (list Q); et_scores : list Q; et_init : list (list Q); et_seen : list (list Q) }.
Definition estune (expf : Q -> Q) (tau tau' : nat -> Q) (b : space) (m : mode) (fit : list val -> Q) (drs : nat -> nat -> odraw)
  (init : list (list Q * list Q)) (ngen : nat) : option et_result :=
  match evolute expf tau tau' m (et_fit b fit) (et_par b) drs init ngen with
  | Some r => Some (EtRes (et_bests expf tau tau' m (et_fit b fit) (et_par b) drs 0 ngen (es_start m (et_fit b fit) init)) (r_local r) (r_init r) (r_seen r))
  | None => None
  end.
(** estune.py:90-92 the DataFrame. *)
Definition et_table (b : space) (r : et_result) : list (string * list cell) :=
  frame (map fst b) (map (map VNum) (et_rows r)) (map CScore (et_scores r)).

(** * BAYESTUNE *)
(** bayestune.py:95-103, 178, 195: values to minimize. *)
Definition as_cost (m : mode) (q : Q) : Q := match m with Mmin => q | Mmax => (- q)%Q end.
(** The user's fitness function: the names of all its arguments (getfullargspec, bayestune.py:51-53), the default
    values of some of them, and its body on the values of all in this order; [None]: it raises. *)
Record func : Type := Func { f_args : list string; f_defaults : list (string * val); f_body : list val -> option Q }.
(** A call with keyword arguments: TypeError for an unknown one and for a missing one without default. *)
Definition call_named (f : func) (kw : list (string * val)) : option Q :=
  if forallb (fun k => if in_dec string_dec k (f_args f) then true else false) (map fst kw)
  then match traverse (fun _ a => dget (kw ++ f_defaults f) a) 0 (f_args f) with Some vs => f_body f vs | None => None end
  else None.

(** bayestune.py:37-44, 58-89: the number of cases, and the dimensions, of which those of an unknown type raise. *)
Definition by_cases (ncases : nat) : nat := if ncases <? 11 then 11 else ncases.
Definition by_dims (g : list (string * rtype)) : option (list (string * rtype)) :=
  if forallb (fun kr => match snd kr with ROther => false | _ => true end) g then Some g else None.

Section Bayes.
(** skopt.gp_minimize: the points it evaluates, given the seed, the objective and the number of calls. *)
Context (search : option nat -> (list val -> option Q) -> nat -> list (list val)).
(** bayestune.py:95-103 fitness_wrapper with use_named_args; for maximizing the sign is changed. *)
Definition by_objective (m : mode) (g : list (string * rtype)) (f : func) (x : list val) : option Q :=
  option_map (as_cost m) (call_named f (combine (map fst g) x)).
(** One search: points and values; an exception of the fitness ends it. *)
Definition by_search (m : mode) (g : list (string * rtype)) (f : func) (seed : option nat) (n : nat) : option (list (list val) * list Q) :=
  let xs := search seed (by_objective m g f) n in
  match traverse (fun _ x => by_objective m g f x) 0 xs with Some ys => Some (xs, ys) | None => None end.
(** bayestune.py:133-198 tune: one search with the seed, or one per core with seed + 1, seed + 2, ...; points
    and values one after the other; pd.DataFrame with the names of the arguments of the fitness, which raises if their number
    is not that of the values; the sign of the values restored. *)
Definition bayestune (g : list (string * rtype)) (f : func) (m : mode) (ncases : nat) (seed : option nat) (ncores : nat) : option (list (list val) * list Q) :=
  match by_dims g with
  | None => None
  | Some _ =>
      let seeds := if 1 <? ncores then map (fun core => option_map (fun s => s + (1 + core)) seed) (seq 0 ncores) else [seed] in
      match traverse (fun _ s => by_search m g f s (by_cases ncases)) 0 seeds with
      | None => None
      | Some rs =>
          let xs := flat_map fst rs in
          if forallb (fun x => length x =? length (f_args f)) xs then Some (xs, map (as_cost m) (flat_map snd rs)) else None
      end
  end.
Definition by_table (f : func) (r : list (list val) * list Q) : list (string * list cell) := frame (f_args f) (fst r) (map CScore (snd r)).
End Bayes.
