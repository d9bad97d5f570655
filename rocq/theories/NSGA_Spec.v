(** Specification vocabulary for the runs of NSGA-II and NSGA-III. *)
From Coq Require Import List Arith ZArith QArith Bool.
From Verif Require Import Base Space_Model Space_Spec Opt_Model ES_Model ES_Spec ND_Spec NSGA_Model.
Import ListNotations.
Open Scope nat_scope.

(** [a] is at least as good as [b] in every objective; better: and strictly better in one. *)
Definition no_worse (m : mode) (a b : list Q) : Prop :=
  match m with Mmax => Forall2 Qle b a | Mmin => Forall2 Qle a b end.
Definition better (m : mode) (a b : list Q) : Prop :=
  no_worse m a b /\ exists f x y, nth_error a f = Some x /\ nth_error b f = Some y /\
    match m with Mmax => (y < x)%Q | Mmin => (x < y)%Q end.

(** The reported pair ([x], [v]) is an evaluated point (up to the representation of numbers)
    with its own objective values. *)
Definition was_evaluated (fit : list Q -> list Q) (seen : list (list Q)) (xv : list Q * list Q) : Prop :=
  exists x', In x' seen /\ Forall2 Qeq (fst xv) x' /\ Forall2 Qeq (snd xv) (fit x').

(** Settings NSGA accepts: [nobj] objectives, at least two members, valid niches and shuffles. *)
Definition alg_ok (alg : nsga_alg) : Prop :=
  match alg with
  | NSGA2 => True
  | NSGA3 nref niche _ shuffle => (forall g vs j, niche g vs j < nref) /\ (forall g, shuffles (shuffle g))
  end.
Definition nsga_ok (fit : list Q -> list Q) (nobj : nat) (p : es_par) (alg : nsga_alg) (init : list (list Q * list Q)) : Prop :=
  wf_dims (p_dims p) /\ (p_smin p < p_smax p)%Q /\ (p_clip p = true \/ p_blend p = false) /\
  1 <= nobj /\ (forall x, length (fit x) = nobj) /\ 2 <= p_mu p /\ p_lambda p = p_mu p /\
  length init = p_mu p /\ Forall (good_pair p) init /\ alg_ok alg.
