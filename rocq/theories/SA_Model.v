(** Model of Simulated Annealing: neorl/evolu/sa.py (class SA).

    Energies are maximised internally.  Temperatures are an arbitrary function of generation,
    chain and step (lines 218-239 compute them with log, exp, std); [expf] is [np.exp].
    Parallel chains are an order-preserving map.  Grid decoding is part of the arbitrary
    fitness. *)
From Coq Require Import List Arith ZArith QArith Qabs Bool.
From Verif Require Import Base Space_Model Opt_Model.
Import ListNotations.
Open Scope nat_scope.

Inductive reinforce : Type := RNone | RHard | RSoft.

(** Parameters (sa.py:54-124).  [sa_eq]: cooling is 'equilibrium'. *)
Record sa_par : Type := SaPar {
  sa_dims : list dimn; sa_npop : nat; sa_ncores : nat; sa_chi : nat -> Q;
  sa_reinf : reinforce; sa_eq : bool; sa_thr : Q }.

(** Draws of one step of a chain: temperature, [random.random()] per coordinate, the samples
    of each coordinate (uniform part and integer part) per attempt, acceptance draw. *)
Record sdraw : Type := SDraw {
  sd_T : Q; sd_u : nat -> Q; sd_su : nat -> nat -> Q; sd_sk : nat -> nat -> nat; sd_acc : Q }.

(** A chain (chain_object): current state, counters, best, and (ghost) evaluated points. *)
Record chain : Type := Chain {
  ch_x : list Q; ch_E : Q; ch_acc : nat; ch_rej : nat; ch_imp : nat; ch_bx : list Q; ch_bE : Q;
  ch_log : list (list Q) }.

Section SA.
Context (expf : Q -> Q) (rnd1 : Q -> Q) (m : mode) (fit : list Q -> Q) (p : sa_par).
(** [move_func]: None is the built-in move; a user function may use its own randomness
    (arguments: generation, chain, step). *)
Context (custom : option (nat -> nat -> nat -> list Q -> list Q)).
(** Attempts after which the rejection loop of lines 212-213 is given up in the model. *)
Context (fuel : nat).

(** sa.py:211-214: sample until the value changes (unless the range is a single value). *)
Fixpoint resample (d : dimn) (x : Q) (su : nat -> Q) (sk : nat -> nat) (t todo : nat) : option Q :=
  match todo with
  | O => None
  | S r => let s := gen_coord d (su t) (sk t) in
           if Qeq_bool x s && negb (Qeq_bool (d_lo d) (d_hi d)) then resample d x su sk (S t) r else Some s
  end.

(** sa.py:199-216 def_move. *)
Fixpoint def_move (chi : Q) (dr : sdraw) (i : nat) (ds : list dimn) (x : list Q) : option (list Q) :=
  match ds, x with
  | [], r => Some r
  | d :: ds', a :: x' =>
      let* b := if Qltb (sd_u dr i) chi then resample d a (sd_su dr i) (sd_sk dr i) 0 fuel else Some a in
      let* r := def_move chi dr (S i) ds' x' in Some (b :: r)
  | _, _ => None
  end.

Definition sa_bounds : list (Q * Q) := map (fun d => (d_lo d, d_hi d)) (sa_dims p).
(** sa.py:184-197 fit_worker. *)
Definition sa_arg (x : list Q) : list Q := clip_vec sa_bounds x.
Definition sa_score (x : list Q) : Q := as_max m (fit (sa_arg x)).

(** sa.py:277-310, one pass of the while loop: step [k] of chain [j] (from 0) in generation [g]. *)
Definition sa_step (g j k : nat) (dr : sdraw) (c : chain) : option chain :=
  let* x0 := match custom with
             | None => def_move (sa_chi p j) dr 0 (sa_dims p) (ch_x c)
             | Some f => Some (f g j k (ch_x c))
             end in
  let x := clip_vec sa_bounds x0 in
  let E := sa_score x in
  let dE := (E - ch_E c)%Q in
  let log := ch_log c ++ [sa_arg x] in
  if Qltb 0 dE then
    if Qltb (ch_bE c) E
    then Some (Chain x E (S (ch_acc c)) (ch_rej c) (S (ch_imp c)) x E log)
    else Some (Chain x E (S (ch_acc c)) (ch_rej c) (S (ch_imp c)) (ch_bx c) (ch_bE c) log)
  else if Qle_bool (sd_acc dr) (expf (dE / sd_T dr)) then
    Some (Chain x E (S (ch_acc c)) (ch_rej c) (ch_imp c) (ch_bx c) (ch_bE c) log)
  else Some (Chain (ch_x c) (ch_E c) (ch_acc c) (S (ch_rej c)) (ch_imp c) (ch_bx c) (ch_bE c) log).

(** sa.py:241-314 chain_object: [while k <= max_step]. *)
Definition sa_chain (drs : nat -> nat -> nat -> sdraw) (g j kmin kmax : nat) (x0 : list Q) (E0 : Q) : option chain :=
  gens (fun k c => sa_step g j k (drs g j k) c) kmin (S kmax - kmin) (Chain x0 E0 0 0 0 x0 E0 []).

(** sa.py:329-336, the step ranges of the chains: [j] runs from 1. *)
Fixpoint sa_ranges (step0 kmin j n : nat) : list (nat * nat) :=
  match n with
  | O => []
  | S r => let kmax := step0 + j * sa_npop p - 1 in (kmin, kmax) :: sa_ranges step0 (kmax + 1) (S j) r
  end.

(** sa.py:316-365 chain: all chains of one generation. *)
Fixpoint sa_chains (drs : nat -> nat -> nat -> sdraw) (g j : nat) (rs : list (nat * nat)) (xs : list (list Q)) (es : list Q)
  : option (list chain) :=
  match rs, xs, es with
  | [], _, _ => Some []
  | (a, b) :: rs', x :: xs', e :: es' =>
      let* c := sa_chain drs g j a b x e in
      let* cs := sa_chains drs g (S j) rs' xs' es' in Some (c :: cs)
  | _, _, _ => None
  end.

(** sa.py:476-498, soft reinforcement.  [w] are the weights exp(-|E|/T); the cumulated
    normalised weights are NaN when their sum is 0.  [np.where(sampling > rho)[0][0]] compares
    the two arrays element by element (IndexError when no element qualifies). *)
Definition sa_sampling (T : Q) (E_next : list Q) : option (list Q) :=
  let w := map (fun e => expf (- (Qabs e) / T)%Q) E_next in
  let total := fold_left Qplus w 0%Q in
  if Qeq_bool total 0 then None
  else Some (map (fun s => (s * (1 / total))%Q) (accumulate Qplus w)).

Fixpoint first_above (i : nat) (s rho : list Q) : option nat :=
  match s, rho with
  | a :: s', b :: rho' => if Qltb b a then Some i else first_above (S i) s' rho'
  | _, _ => None
  end.

Definition sa_index (samp : option (list Q)) (rho : list Q) (prob : Q) (es : list Q) : option nat :=
  if Qeq_bool prob 1 then Some (sa_ncores p - 1)
  else match samp with
       | None => let* '(i, _) := argmax es in Some i
       | Some s => if Qle_bool prob (hd 0%Q s) then Some 0 else first_above 0 s rho
       end.

(** sa.py:487-498: the loop assigns x_next[count], E_next[count] one after the other. *)
Fixpoint sa_soft (samp : option (list Q)) (rho : list Q) (cs : list chain) (todo : list Q) (count : nat)
  (xs : list (list Q)) (es : list Q) : option (list (list Q) * list Q) :=
  match todo with
  | [] => Some (xs, es)
  | prob :: r =>
      let* i := sa_index samp rho prob es in
      let* c := nth_error cs i in
      sa_soft samp rho cs r (S count) (set_nth xs count (ch_bx c)) (set_nth es count (ch_bE c))
  end.

(** State of evolute: next states and energies, E_opt/x_opt (None before the first
    generation: -inf), x_opt_correct (None: unbound), stopped, statistics, ghost log. *)
Record sa_state : Type := SaSt {
  ss_xs : list (list Q); ss_es : list Q; ss_step0 : nat; ss_opt : option (list Q * Q);
  ss_ret : option (list Q); ss_stop : bool; ss_hist : list Q; ss_runs : list (list chain);
  ss_log : list (list Q) }.

(** np.mean of the rounded acceptance rates (lines 351, 466). *)
Definition mean_accept (cs : list chain) : Q :=
  (fold_left Qplus (map (fun c => rnd1 (inject_Z (Z.of_nat (ch_acc c)) / inject_Z (Z.of_nat (sa_npop p)) * 100)) cs) 0
   / inject_Z (Z.of_nat (length cs)))%Q.

(** sa.py:445-504, generation [g] (from 0).  [Ts] is the temperature after the generation,
    [rhos] the draws of soft reinforcement.  After [break] nothing more happens. *)
Definition sa_gen (drs : nat -> nat -> nat -> sdraw) (Ts : nat -> Q) (rhos : nat -> nat -> Q) (g : nat) (st : sa_state)
  : option sa_state :=
  if ss_stop st then Some st else
  if sa_npop p =? 0 then None else
  let* cs := sa_chains drs g 0 (sa_ranges (ss_step0 st) (ss_step0 st) 1 (sa_ncores p)) (ss_xs st) (ss_es st) in
  let step0 := ss_step0 st + sa_npop p * sa_ncores p in
  let* '(i, Emax) := argmax (map ch_bE cs) in
  let* c := nth_error cs i in
  let '(xo, Eo) := match ss_opt st with
                   | None => (ch_bx c, Emax)
                   | Some (x, E) => if Qltb E Emax then (ch_bx c, Emax) else (x, E)
                   end in
  let hist := ss_hist st ++ [as_max m Emax] in
  let runs := ss_runs st ++ [cs] in
  let log := ss_log st ++ concat (map ch_log cs) in
  let xs := map ch_x cs in
  let es := map ch_E cs in
  if sa_eq p && (Qle_bool (mean_accept cs) (sa_thr p) || Qeq_bool (mean_accept cs) 0)
  then Some (SaSt xs es step0 (Some (xo, Eo)) (ss_ret st) true hist runs log)
  else
    let* '(xs', es') :=
      match sa_reinf p with
      | RNone => Some (xs, es)
      | RHard => Some (repeat xo (sa_ncores p), repeat Eo (sa_ncores p))
      | RSoft => let rho := if sa_ncores p =? 1 then [1%Q] else map (rhos g) (seq 0 (sa_ncores p)) in
                 sa_soft (sa_sampling (Ts g) es) rho cs rho 0 xs es
      end in
    Some (SaSt xs' es' step0 (Some (xo, Eo)) (Some xo) false hist runs log).

Record sa_result : Type := SaRes {
  sr_x : list Q; sr_y : Q; sr_hist : list Q; sr_runs : list (list chain); sr_log : list (list Q);
  sr_stop : bool }.

(** sa.py:407-537 evolute with initial states [init] (x0 or GenInd, lines 367-405); reading
    x_opt_correct before any complete generation is an UnboundLocalError. *)
Definition sa_evolute (ngen : nat) (drs : nat -> nat -> nat -> sdraw) (Ts : nat -> Q) (rhos : nat -> nat -> Q)
  (init : list (list Q)) : option sa_result :=
  if negb (length init =? sa_ncores p) then None else
  if sa_ncores p =? 0 then None else
  let* st := gens (sa_gen drs Ts rhos) 0 (ngen / sa_ncores p)
               (SaSt init (map sa_score init) 1 None None false [] [] (map sa_arg init)) in
  let* x := ss_ret st in
  let* '(_, E) := ss_opt st in
  Some (SaRes x (as_max m E) (ss_hist st) (ss_runs st) (ss_log st) (ss_stop st)).
End SA.
