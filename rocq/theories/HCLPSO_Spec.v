(** Vocabulary for C24/C50 about HCLPSO. *)
From Coq Require Import List Arith ZArith QArith.
From Verif Require Import Base Space_Model Space_Spec Opt_Model Opt_Spec HCLPSO_Model.
Import ListNotations.
Open Scope nat_scope.

(** In a log of blocks of [n] evaluations, [z] was visited by particle [i]. *)
Definition visited (n i : nat) (log : list (list Q)) (z : list Q) : Prop := exists b, nth_error log (n * b + i) = Some z.
(** [x] is the best point particle [i] has visited ([v] is its minimised value). *)
Definition personal_best (m : mode) (fit : list Q -> Q) (n i : nat) (log : list (list Q)) (x : list Q) (v : Q) : Prop :=
  visited n i log x /\ (v == as_min m (fit x))%Q /\ forall z, visited n i log z -> (v <= as_min m (fit z))%Q.
(** Every velocity component is at most a fifth of the range of its variable. *)
Definition slow (ds : list dimn) (v : list Q) : Prop :=
  Forall2 (fun d c => (- ((d_hi d - d_lo d) * (1#5)) <= c)%Q /\ (c <= (d_hi d - d_lo d) * (1#5))%Q) ds v.
(** The uniform numbers that pick the friends are at most 1. *)
Definition unit_f (d : fdraw) : Prop := forall j, (fd_1 d j <= 1)%Q /\ (fd_2 d j <= 1)%Q.
