(** Model of tuning from an input file: neorl/tune/runners/gridtune.py, randtune.py, estune.py and bayestune.py (the classes neorl/scripts.py uses for a TUNE card). *)
From Coq Require Import Ascii String List Arith ZArith QArith Bool.
From Verif Require Import IP_Model.
Import ListNotations.
Open Scope list_scope.
Open Scope nat_scope.

(** ** The template *)

(** The lines first and last (gridtune.py:62-67, randtune.py:66-71, estune.py:97-102, bayestune.py:92-97): the numbers of the last lines with 'READ TUNE' and with 'END TUNE', 0 if there is none. *)
Fixpoint last_with (word : text) (i found : nat) (lines : list text) : nat :=
  match lines with [] => found | l :: r => last_with word (S i) (if contains word l then i else found) r end.
(** The text without the card (gridtune.py:68-73, randtune.py:72-76, estune.py:103-107, bayestune.py:98-102).  None: raise (of a string, which raises TypeError).  del a[first : last+1] of a last before first deletes nothing. *)
Definition template (lines : list text) : option text :=
  let first := last_with (t "READ TUNE") 0 0 lines in
  let last := last_with (t "END TUNE") 0 0 lines in
  if (first =? 0) && (last =? 0) then None
  else Some (List.concat (if S last <=? first then lines else firstn first lines ++ skipn (S last) lines)).

(** str.replace(old, new) for an old that is not empty: from the left, without overlaps; [skip] characters of an occurrence are left. *)
Fixpoint replace_from (skip : nat) (old new : text) (s : text) : text :=
  match s with
  | [] => []
  | c :: r =>
      match skip with
      | S k => replace_from k old new r
      | O => if prefix old s then new ++ replace_from (List.length old - 1) old new r else c :: replace_from 0 old new r
      end
  end.
Definition replace (old new s : text) : text := replace_from 0 old new s.

(** One input file from the template (gridtune.py:132-134, randtune.py:188-190, estune.py:304-306, bayestune.py:261-263): name after name is replaced by its value.  None: IndexError for a value that is missing. *)
Fixpoint fill (names : list text) (values : list text) (s : text) : option text :=
  match names, values with
  | [], _ => Some s
  | n :: ns, v :: vs => fill ns vs (replace n v s)
  | _ :: _, [] => None
  end.

(** The tuned keys of the card (gridtune.py:83, randtune.py:87, estune.py:118, bayestune.py:114): with { and with } and not commented out. *)
Definition tuned (key : text) : bool :=
  contains (t "{") key && contains (t "}") key && negb (prefix (t "#") key).

(** all(item in template): otherwise ValueError (gridtune.py:103-104, randtune.py:91-92, estune.py:122-123, bayestune.py:118-119). *)
Definition all_used (tpl : text) (names : list text) : bool := forallb (fun n => contains n tpl) names.

(** itertools.product. *)
Fixpoint product {V} (ls : list (list V)) : list (list V) :=
  match ls with [] => [[]] | l :: r => flat_map (fun x => map (cons x) (product r)) l end.

(** Results of all elements, None if one has none. *)
Fixpoint all_some {A} (l : list (option A)) : option (list A) :=
  match l with [] => Some [] | Some a :: r => option_map (cons a) (all_some r) | None :: _ => None end.

Section Values.
  (** A value of a parameter: an int, a float or a string; int(), float() of a text; str of a value. *)
  Context {V : Type}.
  Variable isspace : ascii -> bool.
  Variable to_int to_float : text -> option V.
  Variable to_str : text -> V.
  Variable show : V -> text.

  (** int if possible, else float if possible, else the text itself (gridtune.py:85-96). *)
  Definition element (s : text) : V :=
    let e := strip isspace s in
    match to_int e with Some v => v | None => match to_float e with Some v => v | None => to_str e end end.

  (** GRIDTUNE.tune_count (gridtune.py:75-107): the names and the values of each; None: ValueError.  The question that is asked for more than 10^6 cases is not modelled. *)
  Definition grid_count (tpl : text) (card : list (text * text)) : option (list text * list (list V)) :=
    let items := filter (fun kv => tuned (fst kv)) card in
    if all_used tpl (map fst items)
    then Some (map fst items, map (fun kv => map element (split "," (snd kv))) items)
    else None.

  (** GRIDTUNE.gen_cases (gridtune.py:120-138): case i + 1 gets the i-th combination, and a file.  The copies of external files are not modelled. *)
  Definition grid_cases (lines : list text) (card : list (text * text)) : option (list (nat * (list V * text))) :=
    match template lines with
    | None => None
    | Some tpl =>
        match grid_count tpl card with
        | None => None
        | Some (names, vals) =>
            let combos := product vals in
            option_map (fun files => combine (seq 1 (List.length combos)) (combine combos files))
              (all_some (map (fun c => fill names (map show c) tpl) combos))
        end
    end.
End Values.

(** ** Running the cases *)

(** reward_lst[-n:] for n >= 0 (gridtune.py:175): everything for n = 0. *)
Definition last_rewards (n : nat) (l : list Q) : list Q := if n =? 0 then l else skipn (List.length l - n) l.
Fixpoint qsum (l : list Q) : Q := match l with [] => 0%Q | x :: r => (x + qsum r)%Q end.
Definition qmean (l : list Q) : Q := (qsum l / inject_Z (Z.of_nat (List.length l)))%Q.
Fixpoint qmax (x : Q) (l : list Q) : Q := match l with [] => x | y :: r => qmax (if Qle_bool x y then y else x) r end.

Section Run.
  Context {V : Type}.
  (** The episode rewards in the one *_out.csv file after case x ran; None if the run left no such file, several, or one without rewards that can be read. *)
  Variable rewards : nat -> option (list Q).
  (** n_last_episodes (not negative: negative numbers are not modelled). *)
  Variable n_last : nat.

  (** A row of tune.csv: the case, its values, the mean and the greatest reward. *)
  Record row := Row { rid : nat; rvals : list V; rmean : Q; rmax : Q }.
  (** case_object (gridtune.py:156-187, randtune.py:215-247): the row it appends; None: 'case{}.inp:failed' (also for no rewards at all: np.max of an empty array raises). *)
  Definition case_object (x : nat) (values : list V) : option row :=
    match rewards x with
    | Some (r0 :: rs) => Some (Row x values (qmean (last_rewards n_last (r0 :: rs))) (qmax r0 rs))
    | _ => None
    end.
  Fixpoint opt_list {A} (l : list (option A)) : list A := match l with [] => [] | Some a :: r => a :: opt_list r | None :: r => opt_list r end.
  (** sort_values(by=['caseid']) (gridtune.py:208, 211); the numbers are different, so every way to sort gives the same. *)
  Fixpoint insert_row (x : row) (l : list row) : list row :=
    match l with [] => [x] | y :: r => if rid x <=? rid y then x :: l else y :: insert_row x r end.
  Definition by_case (l : list row) : list row := fold_right insert_row [] l.
  (** run_cases (gridtune.py:190-216, randtune.py:250-276): the pool runs the cases; [finish] lists them in the order in which they append to tune.csv.  The final tune.csv, and the number of failed cases.  Each append is taken to be one step. *)
  Definition run_cases (cases : list (nat * list V)) (finish : list (nat * list V)) : list row * nat :=
    (by_case (opt_list (map (fun c => case_object (fst c) (snd c)) finish)),
     List.length (filter (fun c => match case_object (fst c) (snd c) with None => true | Some _ => false end) cases)).
  (** The rows of the summary (gridtune.py:238-256): the first 20 of the rows in falling order. *)
  Definition top (ranked : list row) : list row := firstn 20 ranked.
End Run.
Arguments row : clear implicits.

(** ** Distributions *)

(** A parsed distribution: (low, high, u or float), (mu, sigma, n), (low, high, int or randint), (values, grid). *)
Inductive dist (V : Type) := DFloat (lo hi : Q) | DNormal (mu sigma : Q) | DInt (lo hi : Z) | DGrid (vals : list V).
Arguments DFloat {V}. Arguments DNormal {V}. Arguments DInt {V}. Arguments DGrid {V}.
(** A value of a parameter. *)
Inductive gene (V : Type) := GFloat (q : Q) | GInt (z : Z) | GVal (v : V).
Arguments GFloat {V}. Arguments GInt {V}. Arguments GVal {V}.

Section Dist.
  Context {V : Type}.
  Variable isspace : ascii -> bool.
  Variable int_of : text -> option Z.
  Variable float_of : text -> option Q.
  (** An element of a grid (randtune.py:133-150), as [element] above. *)
  Variable elem : text -> V.

  Definition has_word (w : string) (l : list text) : bool := mem (t w) l.
  (** The words that name a distribution. *)
  Definition float_word (l : list text) : bool := has_word "u" l || has_word "float" l.
  Definition normal_word (l : list text) : bool := has_word "n" l.
  Definition int_word (l : list text) : bool := has_word "randint" l || has_word "int" l.
  Definition grid_word (l : list text) : bool := has_word "grid" l.
  Fixpoint remove_text (w : text) (l : list text) : list text := match l with [] => [] | x :: r => if teqb w x then r else x :: remove_text w r end.
  Definition pair_of {A} (f : text -> option A) (l : list text) : option (A * A) :=
    match l with a :: b :: _ => match f a, f b with Some x, Some y => Some (x, y) | _, _ => None end | _ => None end.
  (** tune_count, the part for one parameter (randtune.py:94-156, estune.py:125-189, bayestune.py:121-180).  None: it raises, or a later step does because there is no word for the distribution (randtune.py:190: IndexError, estune.py:246: 'unknown data type', bayestune.py:263: IndexError).
      Simplification: with the words of two distributions the result is None here; the code raises if one of them is grid and takes two values for the one parameter otherwise. *)
  Definition parse_dist (normal : bool) (s : text) : option (dist V) :=
    let l := map (strip isspace) (split "," s) in
    match float_word l, normal && normal_word l, int_word l, grid_word l with
    | true, false, false, false => option_map (fun p => DFloat (fst p) (snd p)) (pair_of float_of l)
    | false, true, false, false => option_map (fun p => DNormal (fst p) (snd p)) (pair_of float_of l)
    | false, false, true, false => option_map (fun p => DInt (fst p) (snd p)) (pair_of int_of l)
    | false, false, false, true => Some (DGrid (map elem (remove_text (t "grid") l)))
    | _, _, _, _ => None
    end.

  (** A draw: a number of [0, 1) for random.uniform, the value of random.gauss, a number that is reduced to the range for randint and sample. *)
  Record draw := Draw { du : Q; dg : Q; dn : nat }.
  (** One value (randtune.py:165-174, estune.py:229-243): random.uniform, random.gauss, random.randint, random.sample(grid, 1)[0].  None: ValueError of an empty range or grid. *)
  Definition sample (d : dist V) (x : draw) : option (gene V) :=
    match d with
    | DFloat lo hi => Some (GFloat (lo + (hi - lo) * du x)%Q)
    | DNormal mu sigma => Some (GFloat (dg x))
    | DInt lo hi => if (lo <=? hi)%Z then Some (GInt (lo + Z.of_nat (dn x) mod (hi - lo + 1))%Z) else None
    | DGrid vals => option_map GVal (nth_error vals (dn x mod List.length vals))
    end.
  (** One case: a value for each parameter, in order (randtune.py:163-176). *)
  Definition sample_all (ds : list (dist V)) (x : nat -> draw) : option (list (gene V)) :=
    all_some (map (fun p => sample (fst p) (x (snd p))) (combine ds (seq 0 (List.length ds)))).
  (** RANDTUNE.tune_count (randtune.py:161-176): ncases cases. *)
  Definition rand_count (ncases : nat) (ds : list (dist V)) (x : nat -> nat -> draw) : option (list (list (gene V))) :=
    all_some (map (fun i => sample_all ds (x i)) (seq 0 ncases)).
End Dist.

(** RANDTUNE from the file to its cases (randtune.py:63-194).  None: an exception. *)
Definition rand_cases {V} isspace int_of float_of (elem : text -> V) (show : gene V -> text) (lines : list text) (card : list (text * text)) (ncases : nat) (x : nat -> nat -> draw)
  : option (list (nat * (list (gene V) * text))) :=
  match template lines with
  | None => None
  | Some tpl =>
      let items := filter (fun kv => tuned (fst kv)) card in
      if all_used tpl (map fst items) then
        match all_some (map (fun kv => parse_dist isspace int_of float_of elem true (snd kv)) items) with
        | None => None
        | Some ds =>
            match rand_count ncases ds x with
            | None => None
            | Some combos =>
                option_map (fun files => combine (seq 1 (List.length combos)) (combine combos files))
                  (all_some (map (fun c => fill (map fst items) (map show c) tpl) combos))
            end
        end
      else None
  end.

(** ** ESTUNE *)

Section Evo.
  Context {V : Type}.
  Notation ind := (list (gene V)).
  (** fit (estune.py:287-345): the mean reward of case x with these values; None: 'case{}.inp:failed'. *)
  Variable fit : nat -> ind -> option Q.
  (** Where the strings of ten failed cases are sorted (estune.py:368): an order that is not spelled out. *)
  Variable by_name : list (ind * option Q) -> list (ind * option Q).

  Definition popsize : nat := 10.   (* estune.py:57 *)
  Definition MU : nat := 5.         (* estune.py:62 *)
  (** ngens (estune.py:58-61). *)
  Definition ngens (ncases : nat) : nat := if ncases <? popsize then 1 else ncases / popsize.

  (** The draws for one value in mutES: whether it is changed, the step of a float, the choice.  The strategies (estune.py:434-447, 472) only scale the step and the probability of a change; both are free here. *)
  Record gene_draw := GDraw { ghit : bool; gstep : Q; gpick : nat }.
  Definition remove_first (z : Z) (l : list Z) : list Z := (fix go l := match l with [] => [] | x :: r => if (x =? z)%Z then r else x :: go r end) l.
  Definition zrange (lo hi : Z) : list Z := map (fun i => (lo + Z.of_nat i)%Z) (seq 0 (Z.to_nat (hi + 1 - lo))).
  (** One step of mutES (estune.py:434-492).  None: random.choice of an empty list (IndexError). *)
  Definition mutate_gene (d : dist V) (x : gene_draw) (g : gene V) : option (gene V) :=
    match d, g with
    | DGrid vals, GVal v => if ghit x then option_map GVal (nth_error vals (gpick x mod List.length vals)) else Some (GVal v)
    | DInt lo hi, GInt z =>
        let choices := remove_first z (zrange lo hi) in
        option_map GInt (nth_error choices (gpick x mod List.length choices))
    | DFloat lo hi, GFloat q =>
        let q1 := if ghit x then (q + gstep x)%Q else q in
        let q2 := if Qle_bool lo q1 then q1 else lo in
        Some (GFloat (if Qle_bool q2 hi then q2 else hi))
    | _, _ => None
    end.
  Definition mutES (ds : list (dist V)) (x : nat -> gene_draw) (p : ind) : option ind :=
    all_some (map (fun k => mutate_gene (fst (fst k)) (x (snd k)) (snd (fst k))) (combine (combine ds p) (seq 0 (List.length p)))).

  (** cx (estune.py:408-419), the first of the two children: from place pt1 to pt2 the values of the second parent.  None: randint(1, 0) with one parameter (ValueError). *)
  Definition cx (a b : nat) (p q : ind) : option ind :=
    let size := Nat.min (List.length p) (List.length q) in
    if size <=? 1 then None
    else
      let pt1 := 1 + a mod size in
      let pt2 := 1 + b mod (size - 1) in
      let lo := if pt1 <=? pt2 then pt1 else pt2 in
      let hi := if pt1 <=? pt2 then S pt2 else pt1 in
      Some (firstn lo p ++ firstn (hi - lo) (skipn lo q) ++ skipn hi p).

  (** The draws for one child (estune.py:503-535): alpha, two different members or one, crossover points, those of mutES. *)
  Record child_draw := CDraw { calpha : Q; ci : nat; cj : nat; ca : nat; cb : nat; cmut : nat -> gene_draw }.
  Definition child (ds : list (dist V)) (pop : list ind) (x : child_draw) : option ind :=
    let n := List.length pop in
    let i := ci x mod n in
    let j := (i + 1 + cj x mod (n - 1)) mod n in
    if negb (Qle_bool (1#2) (calpha x)) then
      match nth_error pop i, nth_error pop j with Some p, Some q => cx (ca x) (cb x) p q | _, _ => None end
    else if negb (Qle_bool ((1#2) + (2#10)) (calpha x)) then
      match nth_error pop i with Some p => mutES ds (cmut x) p | None => None end
    else nth_error pop i.
  Definition offspring (ds : list (dist V)) (pop : list ind) (x : nat -> child_draw) : option (list ind) :=
    all_some (map (fun i => child ds pop (x i)) (seq 0 popsize)).

  (** Evaluating children as cases first, first + 1, ... (estune.py:556-576; 263-285 for the first ten). *)
  Record entry := Entry { ecase : nat; eind : ind; efit : option Q }.
  Definition evaluate (first : nat) (l : list ind) : list entry := map (fun p => Entry (fst p) (snd p) (fit (fst p) (snd p))) (combine (seq first (List.length l)) l).
  (** pop.sort(key=fitness, reverse=True): stable. *)
  Fixpoint insert_desc (x : ind * Q) (l : list (ind * Q)) : list (ind * Q) :=
    match l with [] => [x] | y :: r => if Qle_bool (snd y) (snd x) then x :: l else y :: insert_desc x r end.
  Definition desc (l : list (ind * Q)) : list (ind * Q) := fold_right insert_desc [] l.
  (** select (estune.py:357-381): the best five; None: a string and a number are compared (TypeError). *)
  Definition select (l : list entry) : option (list ind) :=
    match all_some (map efit l) with
    | Some fs => Some (map fst (firstn MU (desc (combine (map eind l) fs))))
    | None =>
        if forallb (fun e => match efit e with None => true | Some _ => false end) l
        then Some (map fst (firstn MU (by_name (map (fun e => (eind e, efit e)) l))))
        else None
    end.
  (** The generations after the first (estune.py:554-580): all cases run, and whether it ended without an exception. *)
  Fixpoint generations (ds : list (dist V)) (x : nat -> nat -> child_draw) (k : nat) (first : nat) (pop : list ind) : list entry * bool :=
    match k with
    | O => ([], true)
    | S k' =>
        match offspring ds pop (x k) with
        | None => ([], false)
        | Some l =>
            let es := evaluate first l in
            match select es with
            | None => (es, false)
            | Some pop' => let r := generations ds x k' (first + popsize) pop' in (es ++ fst r, snd r)
            end
        end
    end.

  (** The columns of tune.csv, and the one whose mean is printed (estune.py:589-590, bayestune.py:378-379): iloc[:, 4:5]; None: IndexError of tolist()[0]. *)
  Inductive column := CaseId | Value (i : nat) | MeanReward | MaxReward.
  Definition columns (n : nat) : list column := CaseId :: map Value (seq 0 n) ++ [MeanReward; MaxReward].
  Definition printed_column (n : nat) : option column := nth_error (columns n) 4.
  (** run_cases (estune.py:537-595): the cases run, and Some (column averaged, number of failed cases reported) if it gets to the summary.  The failed cases are counted among the keys of the population, which are numbers (estune.py:593). *)
  Definition es_run (ds : list (dist V)) (ncases : nat) (init : nat -> nat -> draw) (x : nat -> nat -> child_draw) : list entry * option (column * nat) :=
    match all_some (map (fun i => sample_all ds (init i)) (seq 0 popsize)) with
    | None => ([], None)
    | Some pop =>
        let es := evaluate 1 pop in
        let r := generations ds x (ngens ncases - 1) (S popsize) pop in
        (es ++ fst r, if snd r then option_map (fun c => (c, 0)) (printed_column (List.length ds)) else None)
    end.
End Evo.
Arguments entry : clear implicits.

(** ** BAYESTUNE *)

(** n_calls of each process (bayestune.py:339-360). *)
Definition bayes_calls (ncores ncases : nat) : nat := if ncores =? 1 then Nat.max 11 ncases else Nat.max 11 (ncases / ncores).
(** One process (bayestune.py:259, 299, 318): every call of the objective runs case caseindex + 1 and, unless it failed, counts on.  Failed cases are not modelled: their answer is a string, and what skopt does with it is not part of the code. *)
Fixpoint bayes_process (calls caseindex : nat) : list nat :=
  match calls with O => [] | S k => (caseindex + 1) :: bayes_process k (caseindex + 1) end.
(** The first index of each process (bayestune.py:361-364). *)
Fixpoint bayes_starts (n_calls k index : nat) : list nat :=
  match k with O => [] | S k' => index :: bayes_starts n_calls k' (index + n_calls) end.
(** The numbers of all cases (bayestune.py:339-371), process by process. *)
Definition bayes_ids (ncores ncases : nat) : list nat :=
  let n := bayes_calls ncores ncases in
  if ncores =? 1 then bayes_process n 0 else flat_map (bayes_process n) (bayes_starts n ncores 0).
(** The column it prints; before the summary is written. *)
Definition bayes_printed (n : nat) : option column := printed_column n.
