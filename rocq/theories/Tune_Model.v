(** Model of the hyperparameter tuners neorl/tune/gridtune.py and neorl/tune/randtune.py. *)
From Coq Require Import String List Arith ZArith QArith Qround Bool.
From Verif Require Import Base Space_Model Opt_Model Env_Model.
Import ListNotations.
Open Scope nat_scope.

(** An entry of the result table or of the csv file. *)
Inductive cell : Type := CId (n : nat) | CVal (v : val) | CScore (q : Q) | CFailed (id : nat).

(** gridtune.py 50: itertools.product, the last argument varies fastest. *)
Fixpoint product {A} (ls : list (list A)) : list (list A) :=
  match ls with
  | [] => [[]]
  | l :: r => flat_map (fun a => map (cons a) (product r)) l
  end.

(** gridtune.py 43-51 full_grid. *)
Definition grid_cases (g : list (string * list val)) : list (list val) := product (map snd g).

(** randtune.py 52-82 full_grid: one value of one sampled case.  The draws of random.randint,
    random.uniform and random.sample are arguments. *)
Inductive rtype : Type := RInt (lb ub : Q) | RFloat (lb ub : Q) | RGrid (vals : list val) | ROther.
Section Rand.
Context (randint : nat -> Z -> Z -> Z) (uniform : nat -> Q -> Q -> Q) (pick : nat -> nat).
Definition rand_value (t : nat) (r : rtype) : option val :=
  match r with
  | RInt lb ub => match int_of lb, int_of ub with
                  | Some lo, Some hi => if (lo <=? hi)%Z then Some (VNum (inject_Z (randint t lo hi))) else None
                  | _, _ => None
                  end
  | RFloat lb ub => Some (VNum (uniform t lb ub))
  | RGrid vals => if length vals =? 0 then None else choice vals (pick t)
  | ROther => None
  end.
Definition rand_cases (g : list (string * rtype)) (ncases : nat) : option (list (list val)) :=
  traverse (fun k _ => traverse (fun j r => rand_value (k * length g + j) r) 0 (map snd g)) 0 (repeat tt ncases).
End Rand.

(** A Python dict: assignment keeps the place of an existing key, otherwise appends. *)
Fixpoint dput {A} (d : list (string * A)) (k : string) (a : A) : list (string * A) :=
  match d with
  | [] => [(k, a)]
  | (k', a') :: r => if String.eqb k k' then (k', a) :: r else (k', a') :: dput r k a
  end.

Section Tune.
(** The fitness; [None] stands for an exception. *)
Context (fit : list val -> option Q).

(** gridtune.py 60-66: the dictionary of a case. *)
Definition case_dict (names : list string) (id : nat) (vals : list val) : list (string * cell) :=
  fold_left (fun d nv => dput d (fst nv) (CVal (snd nv))) (combine names vals) [("id"%string, CId id)].

(** gridtune.py 53-89 worker (randtune.py 84-120 is the same): the returned result and the row written
    to the csv file, if any. *)
Definition worker (names : list string) (id : nat) (vals : list val) : cell * list (list cell) :=
  match fit vals with
  | Some q => (CScore q, [map snd (dput (case_dict names id vals) "score" (CScore q))])
  | None => (CFailed id, [])
  end.

(** gridtune.py 116-119: core_lst. *)
Definition core_lst (cases : list (list val)) : list (nat * list val) := combine (seq 1 (length cases)) cases.

(** gridtune.py 131-134: one core; results in order, csv rows appended. *)
Definition serial (names : list string) (cases : list (list val)) : list cell * list (list cell) :=
  (map (fun w => fst (worker names (fst w) (snd w))) (core_lst cases),
   concat (map (fun w => snd (worker names (fst w) (snd w))) (core_lst cases))).

(** gridtune.py 121-129: joblib.  [sched] is the order in which the cases end; each result goes to the
    slot of its case, csv rows are appended (one write each) as cases end. *)
Definition finish (names : list string) (cases : list (list val)) (st : list (option cell) * list (list cell)) (k : nat)
  : list (option cell) * list (list cell) :=
  match nth_error (core_lst cases) k with
  | Some w => let r := worker names (fst w) (snd w) in (set_nth (fst st) k (Some (fst r)), snd st ++ snd r)
  | None => st
  end.
Definition parallel (names : list string) (cases : list (list val)) (sched : list nat) : option (list cell) * list (list cell) :=
  let st := fold_left (finish names cases) sched (repeat None (length cases), []) in
  (traverse (fun _ c => c) 0 (fst st), snd st).

(** gridtune.py 136-138: the DataFrame, column by column; its index starts at 1. *)
Definition column (cases : list (list val)) (j : nat) : list cell :=
  map (fun c => match nth_error c j with Some v => CVal v | None => CVal (VNum 0) end) cases.
Definition frame (names : list string) (cases : list (list val)) (results : list cell) : list (string * list cell) :=
  dput (combine names (map (column cases) (seq 0 (length names)))) "score" results.

(** gridtune.py 107-111: the header of the csv file. *)
Definition header (names : list string) : list string := ("id" :: names ++ ["score"])%string.
End Tune.
