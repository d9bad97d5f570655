(** Specification vocabulary for the evolutionary and the Bayesian tuner. *)
From Coq Require Import String List Arith ZArith QArith Bool.
From Verif Require Import Base Space_Model Space_Spec Opt_Model Opt_Spec ES_Model ES_Spec Tune_Model Tune_Spec ET_Model.
Import ListNotations.
Open Scope nat_scope.

(** A space with at least one value for every hyperparameter; integers have integer bounds. *)
Definition wf_param (p : param) : Prop :=
  match p with
  | PInt lo hi => (lo <= hi)%Q /\ is_int lo /\ is_int hi
  | PFloat lo hi => (lo <= hi)%Q
  | PGrid cs => cs <> []
  end.
Definition wf_space (b : space) : Prop := Forall (fun kp => wf_param (snd kp)) b.

(** The number [q] of an individual stands for the value [v]: itself, or for a grid the choice number [q]. *)
Definition stands_for (p : param) (q : Q) (v : val) : Prop :=
  match p with
  | PGrid cs => exists n, (q == inject_Z (Z.of_nat n))%Q /\ nth_error cs n = Some v
  | _ => v = VNum q
  end.
(** ... and the individual [x] for the case [c]. *)
Definition case_of (b : space) (x : list Q) (c : list val) : Prop :=
  length x = length b /\ length c = length b /\
  forall j k p q v, nth_error b j = Some (k, p) -> nth_error x j = Some q -> nth_error c j = Some v -> stands_for p q v.

(** The ten individuals of generation [g] (from 0). *)
Definition generation (r : et_result) (g : nat) : list (list Q) := firstn 10 (skipn (10 * g) (et_seen r)).

Definition no_grid (b : space) : Prop := forall k cs, ~ In (k, PGrid cs) b.

(** The individuals a tuning starts from: random points of the (coded) space with strategies in range. *)
Definition start_ok (b : space) (init : list (list Q * list Q)) : Prop := length init = 10 /\ Forall (good_pair (et_par b)) init.

(** gp_minimize evaluates as many points as it is told, all in the space. *)
Definition search_ok (search : option nat -> (list val -> option Q) -> nat -> list (list val)) (g : list (string * rtype)) : Prop :=
  forall s f n, length (search s f n) = n /\ Forall (fun x => Forall2 (fun kr v => allowed (snd kr) v) g x) (search s f n).

(** The values of the case [x] (in the order of the names [ns]) in the order of the names [args]. *)
Definition reorder (ns args : list string) (x vs : list val) : Prop :=
  Forall2 (fun a v => exists j, nth_error ns j = Some a /\ nth_error x j = Some v) args vs.

(** The seeds of the searches: the given one, or for several cores the next ones. *)
Definition seeds_of (seed : option nat) (ncores : nat) : list (option nat) :=
  if 1 <? ncores then map (fun core => option_map (fun s => s + (1 + core)) seed) (seq 0 ncores) else [seed].
