(** The genetic algorithm of the input files: neorl/evolu/runners/ga.py with select, cxES2point and mutES of
    neorl/evolu/crossover.py.

    Simplifications.  Numbers are exact.  The types are int and float: any other raises when an individual is made (a grid
    would be sampled from a number) or mutated.  Parallel evaluation keeps the order of the individuals.  [fit] may answer differently at every call,
    so it takes the number of the call.  An exception is [None].  Printing is kept as the best reward of each
    report; plotting is left out. *)
From Coq Require Import List Arith ZArith QArith Qround Bool.
From Verif Require Import Base Space_Model Opt_Model ES_Model.
Import ListNotations.
Open Scope nat_scope.

(** The card [GA] after parsing (ga.py 68-113; ParamList.py [ga_dict]); [g_kbs] is the dataset and [kbs_frac]. *)
Record ga_card : Type := GaCard {
  g_dims : list dimn; g_mu : nat; g_lambda : option nat; g_ngen : nat; g_freq : nat;
  g_cxpb : Q; g_mutpb : Q; g_smin : Q; g_smax : Q; g_kbs : option (list (list Q) * Q) }.

(** [lambda_], ga.py 81-84: [pop] if [lambda] is not given or 0. *)
Definition ga_lambda (c : ga_card) : nat :=
  match g_lambda c with Some (S n) => S n | _ => g_mu c end.

(** [kbs_pop = int(kbs_frac*lambda_)], ga.py 112. *)
Definition kbs_count (c : ga_card) (frac : Q) : Z := trunc (frac * inject_Z (Z.of_nat (ga_lambda c)))%Q.

(** Draws of one initial individual: a raw integer and a number of [0, 1] for each coordinate, one for each
    strategy, and the row of the dataset. *)
Record idraw : Type := IDraw { id_int : nat -> Z; id_u : nat -> Q; id_s : nat -> Q; id_row : nat }.

(** [random.randint(lo, hi)] on whole numbers and [random.uniform(lo, hi)]. *)
Definition randint_incl (lo hi : Q) (raw : Z) : option Q :=
  if (trunc lo <=? trunc hi)%Z
  then Some (inject_Z (trunc lo + raw mod (trunc hi + 1 - trunc lo))%Z) else None.
Definition uniform (lo hi u : Q) : Q := (lo + (hi - lo) * u)%Q.

(** GenES, ga.py 125-154. *)
Fixpoint gen_ind (ds : list dimn) (dr : idraw) (i : nat) : option (list Q) :=
  match ds with
  | [] => Some []
  | d :: t =>
      match (if d_int d then randint_incl (d_lo d) (d_hi d) (id_int dr i)
             else Some (uniform (d_lo d) (d_hi d) (id_u dr i))), gen_ind t dr (S i) with
      | Some x, Some v => Some (x :: v)
      | _, _ => None
      end
  end.
Definition GenES (c : ga_card) (dr : idraw) : option (list Q * list Q) :=
  let strat := map (fun i => uniform (g_smin c) (g_smax c) (id_s dr i)) (seq 0 (length (g_dims c))) in
  match g_kbs c with
  | Some (rows, _) =>
      if ga_lambda c <? length rows then
        match choice rows (id_row dr) with
        | Some r => Some (r, strat)
        | None => None
        end
      else None
  | None => match gen_ind (g_dims c) dr 0 with Some v => Some (v, strat) | None => None end
  end.

Section GA.
(** [np.exp] and the learning rates of a vector of the given length (crossover.py 140-141). *)
Context (expf : Q -> Q) (tau tau' : nat -> Q).
Context (c : ga_card) (fit : nat -> list Q -> Q).

(** mutES, crossover.py 143-188, one coordinate: the discrete branch looks for the value itself among the whole
    numbers of its range, the continuous one repairs the value, and strategies are not repaired. *)
Definition ga_mut_coord (n : nat) (dr : mdraw) (i : nat) (d : dimn) (x s : Q) : option (Q * Q) :=
  if d_int d then
    if Qeq_bool s 0 || Qeq_bool (g_smax c - g_smin c) 0 then None else
    let den := (1 + (1 - s) / s * expf (- tau n * md_norm dr i - tau' n * md_g dr i))%Q in
    if Qeq_bool den 0 then None else
    let s2 := reflect (g_smin c) (g_smax c) (1 / den) in
    if Qltb (md_u dr i) s2 then
      if (trunc (d_lo d) =? trunc (d_hi d))%Z then Some (inject_Z (trunc (d_lo d)), s2)
      else if Qeq_bool x (inject_Z (trunc x)) then
        match zremove (trunc x) (zrange (trunc (d_lo d)) (trunc (d_hi d + 1))) with
        | None => None
        | Some l => match choice l (md_pick dr i) with
                    | Some z => Some (inject_Z z, s2)
                    | None => None
                    end
        end
      else None
    else Some (x, s2)
  else
    let s2 := (s * expf (tau n * md_norm dr i + tau' n * md_g dr i))%Q in
    let y := (x + s2 * md_step dr i)%Q in
    let y1 := if Qltb y (d_lo d) then d_lo d else y in
    let y2 := if Qltb (d_hi d) y1 then d_hi d else y1 in
    Some (y2, s2).
Fixpoint ga_mut_from (n : nat) (dr : mdraw) (i : nat) (ds : list dimn) (v st : list Q)
  : option (list Q * list Q) :=
  match v with
  | [] => Some ([], st)
  | x :: v' =>
      match ds, st with
      | d :: ds', s :: st' =>
          match ga_mut_coord n dr i d x s, ga_mut_from n dr (S i) ds' v' st' with
          | Some (y, t), Some (ys, ts) => Some (y :: ys, t :: ts)
          | _, _ => None
          end
      | _, _ => None
      end
  end.

(** GenOffspring, ga.py 201-246, one offspring. *)
Definition ga_one (dr : odraw) (pop : list member) : option (list Q * list Q) :=
  let n := length pop in
  if Qltb (od_rn dr) (g_cxpb c) then
    (* random.sample of two indices raises below two members *)
    if n <? 2 then None else
    let a := od_i dr mod n in
    let b0 := od_j dr mod (n - 1) in
    let b := if b0 <? a then b0 else b0 + 1 in
    match nth_error pop a, nth_error pop b with
    | Some m1, Some m2 =>
        match cxES2point (od_r1 dr) (od_r2 dr) (m_ind m1) (m_ind m2) (m_strat m1) (m_strat m2) with
        | Some (x, y, s, t) => Some (x, s)
        | None => None
        end
    | _, _ => None
    end
  else
    match choice pop (od_i dr) with
    | None => None
    | Some m =>
        if Qltb (od_rn dr) (g_cxpb c + g_mutpb c)
        then ga_mut_from (length (m_ind m)) (od_mut dr) 0 (g_dims c) (m_ind m) (m_strat m)
        else Some (m_ind m, m_strat m)
    end.
Fixpoint ga_offspring (drs : nat -> odraw) (k todo : nat) (pop : list member) : option (list (list Q * list Q)) :=
  match todo with
  | O => Some []
  | S t => match ga_one (drs k) pop, ga_offspring drs (S k) t pop with
           | Some o, Some os => Some (o :: os)
           | _, _ => None
           end
  end.

(** Fitness of individuals in order, the calls numbered from [k] (ga.py 182-197, 267-281). *)
Fixpoint ga_evaluate (k : nat) (os : list (list Q * list Q)) : list member :=
  match os with
  | [] => []
  | (x, s) :: t => Mem x s (fit k x) :: ga_evaluate (S k) t
  end.

(** init_pop, ga.py 156-199. *)
Fixpoint init_from (drs : nat -> idraw) (k todo : nat) : option (list (list Q * list Q)) :=
  match todo with
  | O => Some []
  | S t => match GenES c (drs k), init_from drs (S k) t with
           | Some o, Some os => Some (o :: os)
           | _, _ => None
           end
  end.
Definition init_pop (drs : nat -> idraw) : option (list member) :=
  match init_from drs 0 (ga_lambda c) with Some os => Some (ga_evaluate 0 os) | None => None end.

(** [random.sample(range(n), k)]: distinct indices; raises if there are fewer than [k] (ga.py 320). *)
Fixpoint sample_from (pool : list nat) (raws : nat -> nat) (i k : nat) : option (list nat) :=
  match k with
  | O => Some []
  | S k' => match choice pool (raws i) with
            | None => None
            | Some a => match sample_from (remove Nat.eq_dec a pool) raws (S i) k' with
                        | Some t => Some (a :: t)
                        | None => None
                        end
            end
  end.

(** The replacement of the last individuals, ga.py 319-334: row [i] goes to place [last - i] and keeps the strategy
    and the fitness there.  A place before the first is an empty list of the defaultdict, whose entry 0 does not
    exist. *)
Fixpoint replace_last (pop : list member) (rows : list (list Q)) (i : nat) : option (list member) :=
  match rows with
  | [] => Some pop
  | r :: t =>
      if length pop <? S i then None
      else match nth_error pop (length pop - S i) with
           | Some m => replace_last (set_nth pop (length pop - S i) (Mem r (m_strat m) (m_fit m))) t (S i)
           | None => None
           end
  end.
Fixpoint rows_at (rows : list (list Q)) (is : list nat) : option (list (list Q)) :=
  match is with
  | [] => Some []
  | i :: t => match nth_error rows i, rows_at rows t with
              | Some r, Some rs => Some (r :: rs)
              | _, _ => None
              end
  end.
Definition kbs_update (raws : nat -> nat) (pop : list member) : option (list member) :=
  match g_kbs c with
  | None => Some pop
  | Some (rows, frac) =>
      if (kbs_count c frac <? 0)%Z then None
      else match sample_from (seq 0 (length rows)) raws 0 (Z.to_nat (kbs_count c frac)) with
           | None => None
           | Some is => match pop with
                        | [] => None
                        | _ => match rows_at rows is with
                               | Some rs => replace_last pop rs 0
                               | None => None
                               end
                        end
           end
  end.

(** The greatest reward of a population (np.max raises on none). *)
Fixpoint max_fit (m : Q) (l : list member) : Q :=
  match l with [] => m | a :: t => max_fit (if Qltb m (m_fit a) then m_fit a else m) t end.

(** What a generation did: its parents, its offspring with their rewards, the best reward it reported. *)
Record generation : Type := Gen { gn_parents : list member; gn_offspring : list member; gn_report : option Q }.

(** evolute, ga.py 248-336, one generation with the population it leaves. *)
Definition ga_gen (g : nat) (drs : nat -> odraw) (raws : nat -> nat) (pop : list member)
  : option (generation * list member) :=
  match ga_offspring drs 0 (ga_lambda c) pop with
  | None => None
  | Some os =>
      let off := ga_evaluate (g * ga_lambda c) os in
      let best := select off (g_mu c) in
      match g_freq c with
      | O => None
      | S _ =>
          let due := (g mod g_freq c =? 0) || (g =? g_ngen c) in
          match (if due then match best with [] => None | m :: t => Some (Some (max_fit (m_fit m) t)) end
                 else Some None) with
          | None => None
          | Some rep => match kbs_update raws best with
                        | Some pop' => Some (Gen pop off rep, pop')
                        | None => None
                        end
          end
      end
  end.
Fixpoint ga_gens (drs : nat -> nat -> odraw) (raws : nat -> nat -> nat) (g todo : nat) (pop : list member)
  : option (list generation) :=
  match todo with
  | O => Some []
  | S t => match ga_gen g (drs g) (raws g) pop with
           | None => None
           | Some (gen, pop') => match ga_gens drs raws (S g) t pop' with
                                 | Some l => Some (gen :: l)
                                 | None => None
                                 end
           end
  end.

(** build, ga.py 338-349: the initial population and the generations. *)
Definition ga_build (ini : nat -> idraw) (drs : nat -> nat -> odraw) (raws : nat -> nat -> nat)
  : option (list member * list generation) :=
  match init_pop ini with
  | None => None
  | Some pop => match ga_gens drs raws 1 (g_ngen c) pop with
                | Some l => Some (pop, l)
                | None => None
                end
  end.
End GA.
