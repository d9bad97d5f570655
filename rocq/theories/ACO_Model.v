(** neorl/evolu/aco.py (int/float bounds; joblib keeps the order of the ants). *)
From Coq Require Import List Arith ZArith QArith Qabs Bool.
From Verif Require Import Base Space_Model Opt_Model Pop_Model Swarm_Model.
Import ListNotations.
Open Scope nat_scope.

Definition qsum (l : list Q) : Q := fold_right Qplus 0%Q l.

(** __computePdf, aco.py:82-89, and the normalisation of line 136: [expf] is exp, [c] the constant
    1/(sqrt(2*pi)*q*npop).  The square is outside the exponential. *)
Definition aco_weight (expf : Q -> Q) (c q : Q) (npop i : nat) : Q :=
  let e := expf (- (1 # 2) * ((qnat i - 1) / (q * qnat npop)))%Q in (c * (e * e))%Q.
Definition aco_probs (expf : Q -> Q) (c q : Q) (npop : nat) : list Q :=
  let w := map (aco_weight expf c q npop) (seq 0 npop) in
  map (fun x => x / qsum w)%Q w.

(** __rouletteWheelSelection, aco.py:91-98: first position whose cumulated probability is at least
    the draw (None: IndexError). *)
Fixpoint roulette (r acc : Q) (i : nat) (p : list Q) : option nat :=
  match p with
  | [] => None
  | x :: t => if Qle_bool r (acc + x) then Some i else roulette r (acc + x)%Q (S i) t
  end.

(** aco.py:140-142: the first [npop] archive positions as rows of a matrix with [nv] columns (None:
    IndexError if there are fewer, ValueError for a row of another length). *)
Definition aco_means (npop nv : nat) (arch : list (list Q * Q)) : option (list (list Q)) :=
  if length arch <? npop then None
  else traverse (fun _ xf => if length (fst xf) =? nv then Some (fst xf) else None) 0 (firstn npop arch).

(** aco.py:144-149: [z * sum_r |mean_l - mean_r| / (npop - 1)]; NaN (None) for npop = 1, where
    NumPy divides an array of zeros by zero. *)
Definition aco_sigma (z : Q) (npop : nat) (means : list (list Q)) (l j : nat) : option Q :=
  if npop - 1 =? 0 then None else
  let d := qsum (map (fun r => Qabs (nth j (nth l means []) 0 - nth j r 0)) means)%Q in
  Some (z * d / qnat (npop - 1))%Q.

(** Draws of one ant: for each coordinate the roulette number and the normal deviate. *)
Record antdraw : Type := AntDraw { an_r : nat -> Q; an_g : nat -> Q }.

(** aco.py:153-157. *)
Definition aco_coord (probs : list Q) (z : Q) (npop : nat) (means : list (list Q)) (d : antdraw) (j : nat) : option fnum :=
  let* k := roulette (an_r d j) 0 0 probs in
  let* row := nth_error means k in
  let* x := nth_error row j in
  Some (match aco_sigma z npop means k j with Some s => Num (x + s * an_g d j)%Q | None => NaN end).

(** The numbers of a vector; ensure_bounds leaves no NaN in its result. *)
Definition nums (v : list fnum) : list Q := flat_map (fun a => match a with Num q => [q] | NaN => [] end) v.

(** aco.py:152-159: one ant, bounds applied (integer variables are not rounded). *)
Definition aco_ant (probs : list Q) (z : Q) (npop : nat) (ds : list dimn) (means : list (list Q)) (d : antdraw) : option (list Q) :=
  let* v := traverse (fun _ j => aco_coord probs z npop means d j) 0 (seq 0 (length ds)) in
  let* w := ensure_bounds v (bnds ds) in
  Some (nums w).

Record aco_state : Type := AcoSt {
  ac_arch : list (list Q * Q); ac_new : list (list Q * Q); ac_local : list Q; ac_global : list Q; ac_log : list (list Q) }.

Record aco_result : Type := AcoRes {
  ar_x : list Q; ar_y : Q; ar_hl : list Q; ar_hg : list Q; ar_pop : list (list Q); ar_pf : list Q;
  ar_arch : list (list Q * Q); ar_log : list (list Q) }.

Section A.
Context (m : mode) (fit : list Q -> Q) (ds : list dimn).
Let cost (x : list Q) : list Q * Q := (x, as_min m (fit x)).

(** One generation, aco.py:138-196: sample, evaluate, merge, sort (stable), truncate. *)
Definition aco_gen (probs : list Q) (z : Q) (nants npop : nat) (drs : nat -> nat -> antdraw) (g : nat) (st : aco_state) : option aco_state :=
  let* means := aco_means npop (length ds) (ac_arch st) in
  let* pos := traverse (fun _ i => aco_ant probs z npop ds means (drs g i)) 0 (seq 0 nants) in
  let new := map cost pos in
  let arch := firstn npop (sort_asc snd (ac_arch st ++ new)) in
  let* b := nth_error arch 0 in
  let* '(_, lo) := argmin (map snd new) in
  Some (AcoSt arch new (ac_local st ++ [as_min m lo]) (ac_global st ++ [as_min m (snd b)]) (ac_log st ++ pos)).

(** ACO.__init__ (the assertion on narchive, aco.py:51) and evolute, aco.py:115-222, with
    Populations.ant_populations, aco.py:288-340.  x0 is neither checked nor clipped. *)
Definition aco_evolute (expf : Q -> Q) (c q z : Q) (nants npop ngen : nat) (drs : nat -> nat -> antdraw) (init : list (list Q))
  : option aco_result :=
  if nants <? npop then None else
  if negb (length init =? nants) then None else
  if ngen =? 0 then None else
  let* st := gens (aco_gen (aco_probs expf c q npop) z nants npop drs) 0 ngen
               (AcoSt (sort_asc snd (map cost init)) [] [] [] init) in
  let* b := nth_error (ac_arch st) 0 in
  Some (AcoRes (fst b) (as_min m (snd b)) (ac_local st) (ac_global st) (map fst (ac_new st))
          (map (fun xf => as_min m (snd xf)) (ac_new st)) (ac_arch st) (ac_log st)).
End A.
