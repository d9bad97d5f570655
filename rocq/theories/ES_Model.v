(** Model of Evolution Strategies: neorl/evolu/crossover.py (recombination),
    neorl/evolu/es.py (ES).

    Individuals are position vectors in the encoded numeric space (grid parameters are
    integers there, see C13); the decoding done by fit_worker (es.py:227-239) is part of
    the arbitrary fitness function.  Parallel evaluation (joblib) is an order-preserving
    map.  An exception is [None].  RL-informed mode (es.py:408-424) is modelled in RLI_Model.v. *)
From Coq Require Import List Arith ZArith QArith Qround Bool.
From Verif Require Import Base Space_Model Opt_Model.
Import ListNotations.
Open Scope nat_scope.

(** neorl/evolu/crossover.py:83 slice assignment [a[p:q], b[p:q] = b[p:q], a[p:q]], first
    component of the result; lists of equal length. *)
Definition splice {A} (p q : nat) (a b : list A) : list A :=
  firstn p a ++ firstn (q - p) (skipn p b) ++ skipn q a.

(** neorl/evolu/crossover.py:61-86 cxES2point.  [r1], [r2] are the draws behind
    [random.randint(1,size)] and [random.randint(1,size-1)]; the latter raises when
    [size < 2]. *)
Definition cxES2point {A B} (r1 r2 : nat) (i1 i2 : list A) (s1 s2 : list B)
  : option (list A * list A * list B * list B) :=
  let size := Nat.min (length i1) (length i2) in
  if size <? 2 then None
  else
    let pt1 := 1 + r1 mod size in
    let pt2 := 1 + r2 mod (size - 1) in
    let '(pt1, pt2) := if pt1 <=? pt2 then (pt1, pt2 + 1) else (pt2, pt1) in
    Some (splice pt1 pt2 i1 i2, splice pt1 pt2 i2 i1,
          splice pt1 pt2 s1 s2, splice pt1 pt2 s2 s1).

(** neorl/evolu/crossover.py:35-59 cxESBlend; [u j], [w j] are the two [random.random()]
    draws of coordinate [j]. *)
Definition blend (alpha u x y : Q) : Q * Q :=
  let g := ((1 + 2 * alpha) * u - alpha)%Q in
  (((1 - g) * x + g * y)%Q, (g * x + (1 - g) * y)%Q).
Fixpoint blend_vec (alpha : Q) (u : nat -> Q) (j : nat) (a b : list Q) : list Q * list Q :=
  match a, b with
  | x :: a', y :: b' =>
      let '(c, d) := blend alpha (u j) x y in
      let '(cs, ds) := blend_vec alpha u (S j) a' b' in (c :: cs, d :: ds)
  | _, _ => ([], [])
  end.
Definition cxESBlend (alpha : Q) (u w : nat -> Q) (i1 i2 s1 s2 : list Q)
  : list Q * list Q * list Q * list Q :=
  let '(a, b) := blend_vec alpha u 0 i1 i2 in
  let '(c, d) := blend_vec alpha w 0 s1 s2 in (a, b, c, d).

(** A member of the population dictionary: [ind, strategy, fitness]. *)
Record member : Type := Mem { m_ind : list Q; m_strat : list Q; m_fit : Q }.

(** neorl/evolu/es.py:241-265 select (also neorl/evolu/crossover.py:93-117): stable
    descending sort on the fitness, first [k], keys renumbered. *)
Definition select (pop : list member) (k : nat) : list member := firstn k (sort_desc m_fit pop).

(** neorl/evolu/es.py:219-225 ensure_discrete. *)
Definition dims_bounds (ds : list dimn) : list (Q * Q) := map (fun d => (d_lo d, d_hi d)) ds.
Definition es_ensure_discrete (ds : list dimn) (v : list Q) : list Q :=
  map2 (fun d x => if d_int d then inject_Z (trunc x) else x) ds (clip_vec (dims_bounds ds) v).

(** [np.clip(v, lo, hi)]. *)
Definition np_clip (lo hi x : Q) : Q := qmin2 (qmax2 x lo) hi.

(** Draws of one mutation: the Gaussian draws, the uniform draw and the choice of each
    coordinate. *)
Record mdraw : Type := MDraw {
  md_norm : nat -> Q; md_g : nat -> Q; md_step : nat -> Q; md_u : nat -> Q; md_pick : nat -> nat }.

(** Parameters of an ES object (es.py:33-118). *)
Record es_par : Type := EsPar {
  p_dims : list dimn; p_mu : nat; p_lambda : nat; p_blend : bool;
  p_alpha : Q; p_cxpb : Q; p_mutpb : Q; p_smin : Q; p_smax : Q; p_clip : bool }.

(** Draws of one offspring. *)
Record odraw : Type := ODraw {
  od_rn : Q; od_i : nat; od_j : nat; od_r1 : nat; od_r2 : nat;
  od_u : nat -> Q; od_w : nat -> Q; od_mut : mdraw }.

Section ES.
(** [np.exp] and the learning rates [tau], [tau_prime] of a vector of the given length
    (es.py:284-285) are arbitrary functions. *)
Context (expf : Q -> Q) (tau tau' : nat -> Q).

(** neorl/evolu/es.py:300-305: reflection of a strategy value into [smin, smax]. *)
Definition reflect (smin smax s : Q) : Q :=
  let y := ((s - smin) / (smax - smin))%Q in
  let f := inject_Z (Qfloor y) in
  let y' := if Z.even (Qfloor y) then qabs (y - f)%Q else (1 - qabs (y - f))%Q in
  (smin + (smax - smin) * y')%Q.

(** neorl/evolu/es.py:289-334, one coordinate [i] of a vector of length [n]: new value and
    new strategy.  A division by zero is an exception here (a NumPy divisor would give
    inf/nan with a warning; C17_total shows that it cannot happen for 0 < smin < smax <= 1). *)
Definition mut_coord (smin smax : Q) (n : nat) (dr : mdraw) (i : nat) (d : dimn) (x s : Q)
  : option (Q * Q) :=
  if d_int d then
    if Qeq_bool s 0 || Qeq_bool (smax - smin) 0 then None else
    let den := (1 + (1 - s) / s * expf (- tau n * md_norm dr i - tau' n * md_g dr i))%Q in
    if Qeq_bool den 0 then None else
    let s2 := reflect smin smax (1 / den) in
    if Qltb (md_u dr i) s2 then
      if (trunc (d_lo d) =? trunc (d_hi d))%Z then Some (inject_Z (trunc (d_lo d)), s2)
      else match zremove (trunc x) (zrange (trunc (d_lo d)) (trunc (d_hi d) + 1)) with
           | None => None
           | Some l => match choice l (md_pick dr i) with
                       | Some z => Some (inject_Z z, s2)
                       | None => None
                       end
           end
    else Some (inject_Z (trunc x), s2)
  else
    let s2 := (s * expf (tau n * md_norm dr i + tau' n * md_g dr i))%Q in
    Some ((x + s2 * md_step dr i)%Q, s2).

Fixpoint mut_from (smin smax : Q) (n : nat) (dr : mdraw) (i : nat) (ds : list dimn) (v st : list Q)
  : option (list Q * list Q) :=
  match ds, v, st with
  | [], _, _ => Some ([], [])
  | d :: ds', x :: v', s :: st' =>
      match mut_coord smin smax n dr i d x s, mut_from smin smax n dr (S i) ds' v' st' with
      | Some (y, t), Some (ys, ts) => Some (y :: ys, t :: ts)
      | _, _ => None
      end
  | _, _, _ => None
  end.

(** neorl/evolu/es.py:267-338 mutES. *)
Definition mutES (p : es_par) (dr : mdraw) (ind st : list Q) : option (list Q * list Q) :=
  match mut_from (p_smin p) (p_smax p) (length ind) dr 0 (p_dims p)
          (clip_vec (dims_bounds (p_dims p)) ind) st with
  | None => None
  | Some (v, s) => Some (clip_vec (dims_bounds (p_dims p)) v, map (np_clip (p_smin p) (p_smax p)) s)
  end.

(** neorl/evolu/es.py:357-400, body of the loop of GenOffspring: the population (whose
    member chosen for reproduction is repaired in place, line 397) and the offspring. *)
Definition gen_one (p : es_par) (dr : odraw) (pop : list member)
  : option (list member * (list Q * list Q)) :=
  let n := length pop in
  if Qltb (od_rn dr) (p_cxpb p) then
    (* random.sample(pop_indices, 2): two distinct indices, ValueError below two members *)
    if n <? 2 then None else
    let a := od_i dr mod n in
    let b0 := od_j dr mod (n - 1) in
    let b := if b0 <? a then b0 else b0 + 1 in
    match nth_error pop a, nth_error pop b with
    | Some m1, Some m2 =>
        let crossed :=
          if p_blend p
          then let '(x, y, s, t) := cxESBlend (p_alpha p) (od_u dr) (od_w dr) (m_ind m1) (m_ind m2) (m_strat m1) (m_strat m2)
               in Some (x, s)
          else match cxES2point (od_r1 dr) (od_r2 dr) (m_ind m1) (m_ind m2) (m_strat m1) (m_strat m2) with
               | Some (x, y, s, t) => Some (x, s)
               | None => None
               end in
        match crossed with
        | Some (x, s) => Some (pop, (es_ensure_discrete (p_dims p) (clip_vec (dims_bounds (p_dims p)) x), s))
        | None => None
        end
    | _, _ => None
    end
  else if Qltb (od_rn dr) (p_cxpb p + p_mutpb p) then
    match choice pop (od_i dr) with
    | Some m => match mutES p (od_mut dr) (m_ind m) (m_strat m) with
                | Some xs => Some (pop, xs)
                | None => None
                end
    | None => None
    end
  else
    match choice pop (od_i dr) with
    | Some m => let x := es_ensure_discrete (p_dims p) (m_ind m) in
                Some (set_nth pop (od_i dr mod n) (Mem x (m_strat m) (m_fit m)), (x, m_strat m))
    | None => None
    end.

Fixpoint gen_loop (p : es_par) (drs : nat -> odraw) (k : nat) (todo : nat) (pop : list member)
  : option (list (list Q * list Q)) :=
  match todo with
  | O => Some []
  | S t => match gen_one p (drs k) pop with
           | None => None
           | Some (pop', o) => match gen_loop p drs (S k) t pop' with
                               | Some os => Some (o :: os)
                               | None => None
                               end
           end
  end.

(** neorl/evolu/es.py:340-406 GenOffspring: [lambda_] offspring, strategies clipped when
    [clip] is set. *)
Definition GenOffspring (p : es_par) (drs : nat -> odraw) (pop : list member)
  : option (list (list Q * list Q)) :=
  match gen_loop p drs 0 (p_lambda p) pop with
  | None => None
  | Some os => Some (if p_clip p
                     then map (fun o => (fst o, map (np_clip (p_smin p) (p_smax p)) (snd o))) os
                     else os)
  end.

(** State of evolute (es.py:426-533): current population, best so far ([None]: -inf, no
    position yet), best score of each generation, and (ghost) all points on which the fitness
    was evaluated, in order, generation by generation. *)
Record es_state : Type := EsSt {
  es_pop : list member; es_best : option (list Q * Q); es_scores : list Q; es_seen : list (list Q) }.

Section Run.
Context (m : mode) (fit : list Q -> Q) (p : es_par).

Definition evaluate (o : list Q * list Q) : member := Mem (fst o) (snd o) (as_max m (fit (fst o))).

(** es.py:163-200 init_pop on the given individuals and strategies. *)
Definition es_start (init : list (list Q * list Q)) : es_state :=
  EsSt (map evaluate init) None [] [].

(** es.py:448-483, one generation.  [es_seen] holds the offspring only; the evaluated initial
    population is reported separately in [es_result]. *)
Definition es_gen (drs : nat -> odraw) (st : es_state) : option es_state :=
  match GenOffspring p drs (es_pop st) with
  | None => None
  | Some os =>
      let pop' := select (map evaluate os) (p_mu p) in
      match argmax (map m_fit pop') with
      | None => None
      | Some (k, v) =>
          match nth_error pop' k with
          | None => None
          | Some b =>
              Some (EsSt pop'
                      (match es_best st with
                       | None => Some (m_ind b, v)
                       | Some (x, y) => if Qltb y v then Some (m_ind b, v) else Some (x, y)
                       end)
                      (es_scores st ++ [v]) (es_seen st ++ map fst os))
          end
      end
  end.

Fixpoint es_gens (drs : nat -> nat -> odraw) (g todo : nat) (st : es_state) : option es_state :=
  match todo with
  | O => Some st
  | S t => match es_gen (drs g) st with Some st' => es_gens drs (S g) t st' | None => None end
  end.

(** es.py:426-533 evolute on [ngen] generations: returned position, returned value,
    per-generation best (local_fitness), running best (global_fitness).  With ngen = 0 the
    returned attributes do not exist (AttributeError). *)
Record es_result : Type := EsRes {
  r_x : list Q; r_y : Q; r_local : list Q; r_global : list Q;
  r_init : list (list Q);   (* ghost: evaluated initial population *)
  r_seen : list (list Q)    (* ghost: evaluated offspring *) }.

Definition evolute (drs : nat -> nat -> odraw) (init : list (list Q * list Q)) (ngen : nat)
  : option es_result :=
  match es_gens drs 0 ngen (es_start init) with
  | Some st =>
      match es_best st with
      | Some (x, y) =>
          let scores := map (as_max m) (es_scores st) in
          Some (EsRes x (as_max m y) scores
                  (accumulate (match m with Mmin => qmin2 | Mmax => qmax2 end) scores)
                  (map fst init) (es_seen st))
      | None => None
      end
  | None => None
  end.
End Run.
End ES.
