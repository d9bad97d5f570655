(** What cuckoo search reports. *)
From Coq Require Import List Arith ZArith QArith Bool.
From Verif Require Import Base Space_Model Space_Spec Opt_Model Opt_Spec.
Import ListNotations.
Open Scope nat_scope.

(** The point of the space nearest to [x], coordinate by coordinate. *)
Definition nearest_point (ds : list dimn) (x : list Q) : list Q :=
  map (fun dx => clip1 (d_lo (fst dx)) (d_hi (fst dx)) (snd dx)) (combine ds x).

(** Integer variables integral and in range; nothing is said about the others. *)
Definition ints_ok (ds : list dimn) (x : list Q) : Prop :=
  Forall2 (fun d a => d_int d = true -> is_int a /\ (d_lo d <= a)%Q /\ (a <= d_hi d)%Q) ds x.
