(** What is expected of the Animorphic Ensemble Optimizer. *)
From Coq Require Import List Arith ZArith QArith Bool Permutation.
From Verif Require Import Base Space_Model Opt_Model AEO_Model.
Import ListNotations.
Open Scope nat_scope.

(** ** What the libraries and the strategies provide *)
(** np.random.binomial(n, w) is at most n; np.random.choice(range(n), size=e, replace=False)
    gives e different indices; random.shuffle permutes; np.random.multinomial(k, p) gives one
    number for each element of p, with sum k. *)
Record draws_ok (dr : adraw) : Prop := {
  dk_ei : forall c j n w, (0 <= w)%Q -> (w <= 1)%Q -> ad_ei dr c j n w <= n;
  dk_idx : forall c j n e, e <= n -> NoDup (ad_idx dr c j n e) /\ length (ad_idx dr c j n e) = e /\
                                     Forall (fun i => i < n) (ad_idx dr c j n e);
  dk_shuffle : forall c l, Permutation (ad_shuffle dr c l) l;
  dk_allot : forall c k p, p <> [] -> length (ad_allot dr c k p) = length p /\ list_sum (ad_allot dr c k p) = k }.

Definition strategies := nat -> nat -> list (list Q) -> option (list (list Q * Q) * list (list Q)).
(** A strategy keeps the number of individuals; it does not raise and evaluates something. *)
Definition keeps_size (ev : strategies) : Prop :=
  forall c j ms last seen, ev c j ms = Some (last, seen) -> length last = length ms.
Definition never_raises (ev : strategies) : Prop :=
  forall c j ms, ms <> [] -> exists last seen, ev c j ms = Some (last, seen) /\ seen <> [].
(** The fitness values in last_pop are those of the individuals in last_pop. *)
Definition honest (fit : list Q -> Q) (ev : strategies) : Prop :=
  forall c j ms last seen, ev c j ms = Some (last, seen) -> Forall (fun xf => snd xf == fit (fst xf))%Q last.
(** The power of a non-negative (positive) number is one. *)
Definition power_ok (pw : Q -> Q -> Q) : Prop :=
  forall x a, ((0 <= x -> 0 <= pw x a) /\ (0 < x -> 0 < pw x a))%Q.

(** ** Individuals and their fitness values *)
Definition individuals (ps : list apop) : list (list Q) := concat (map ap_mem ps).
Definition pairs (p : apop) : list (list Q * fnum) := combine (ap_mem p) (ap_fit p).
(** One fitness value for each member; the recorded size is the number of members. *)
Definition in_step (p : apop) : Prop := length (ap_fit p) = length (ap_mem p) /\ ap_n p = length (ap_mem p).
(** Every recorded fitness is the fitness of the member at the same place (NaN: not evaluated). *)
Definition own_value (fit : list Q -> Q) (x : list Q) (f : fnum) : Prop :=
  match f with Num v => (v == fit x)%Q | NaN => True end.
Definition own_values (fit : list Q -> Q) (p : apop) : Prop := Forall2 (own_value fit) (ap_mem p) (ap_fit p).
Definition fsame (a b : fnum) : Prop := match a, b with Num x, Num y => (x == y)%Q | NaN, NaN => True | _, _ => False end.
Definition psame (a b : list Q * fnum) : Prop := fst a = fst b /\ fsame (snd a) (snd b).
(** What migration does to one population: the members split into those that stay, with their
    values, and those that leave; the newcomers are added with unknown value. *)
Definition moved (b a : apop) (leave arrive : list (list Q)) : Prop :=
  exists stay gone news, Permutation (pairs b) (stay ++ gone) /\ map fst gone = leave /\
    Permutation (pairs a) news /\ Forall2 psame news (stay ++ map (fun x => (x, NaN)) arrive).
(** ... and to all: everybody who leaves arrives somewhere. *)
Definition migration (before after : list apop) : Prop :=
  exists leave arrive, length leave = length before /\ length arrive = length before /\ length after = length before /\
    Permutation (concat leave) (concat arrive) /\
    forall i b a, nth_error before i = Some b -> nth_error after i = Some a -> moved b a (nth i leave []) (nth i arrive []).

(** ** Probabilities *)
Definition prob (q : Q) : Prop := (0 <= q /\ q <= 1)%Q.
(** A probability vector. *)
Definition distribution (l : list Q) : Prop := Forall prob l /\ (qsum l == 1)%Q.
(** A column stochastic matrix given by its columns. *)
Definition stochastic (n : nat) (M : list (list Q)) : Prop :=
  length M = n /\ Forall (fun col => length col = n /\ distribution col) M.
(** What one cycle logs: scaled strengths (if there was migration), export probabilities, destination
    probabilities, one entry for each population, and the migration matrix. *)
Definition probabilities (lg : clog) : Prop :=
  (cl_mig lg = true -> distribution (cl_str lg)) /\ Forall prob (cl_wts lg) /\ distribution (cl_dest lg) /\
  length (cl_wts lg) = length (cl_before lg) /\ length (cl_dest lg) = length (cl_before lg) /\
  (cl_mig lg = true -> length (cl_str lg) = length (cl_before lg)) /\
  cl_n lg = map ap_n (cl_before lg) /\ stochastic (length (cl_before lg)) (cl_M lg).

(** Binomial coefficients by Pascal's rule. *)
Fixpoint choose (n k : nat) : nat :=
  match n, k with
  | _, O => 1
  | O, S _ => 0
  | S n', S k' => choose n' k' + choose n' (S k')
  end.
Definition q_ok (r : ramp) : Prop := match r with Const q => (-1 <= q /\ q <= 1)%Q | _ => True end.
(** Settings and ensembles with which a run never raises: at least two cycles, a constant q
    between -1 and 1, an order unless the weights are uniform, and every optimizer starts with
    as many individuals as it needs. *)
Definition settings_ok (pa : apar) (Ncyc : nat) : Prop :=
  2 <= Ncyc /\ 1 <= pa_gpc pa /\ q_ok (pa_q pa) /\ (pa_wt pa = Uni \/ pa_order pa <> NoOrder).
Definition alg_ok (a : aalgo) : Prop := match a with aES mu => 1 <= mu | _ => True end.
Definition enough (algs : list aalgo) (pop0 : list nat) : Prop :=
  algs <> [] /\ forall i a, nth_error algs i = Some a -> alg_ok a /\ ready a (count_occ Nat.eq_dec pop0 i) = true.
