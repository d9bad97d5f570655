(** Specification vocabulary for the RL-informed optimizers. *)
From Coq Require Import String List Arith ZArith QArith Bool Permutation.
From Verif Require Import Base Space_Model Space_Spec Opt_Model Opt_Spec DE_Model RLI_Model.
Import ListNotations.
Open Scope nat_scope.

(** [order] returns the positions of its argument in ascending order of value; positions of equal
    values come in any order. *)
Definition sorts (order : list Q -> list nat) : Prop := forall l,
  Permutation (order l) (seq 0 (length l)) /\
  forall i j a b x y, i <= j -> nth_error (order l) i = Some a -> nth_error (order l) j = Some b ->
    nth_error l a = Some x -> nth_error l b = Some y -> (x <= y)%Q.

(** The calls number f, 2f, 3f, ... *)
Definition every {A} (f : nat) (l : list A) : list A :=
  map snd (filter (fun ie => (S (fst ie)) mod f =? 0) (combine (seq 0 (length l)) l)).

(** [(x, r)] is what the first environment produced at this call. *)
Definition first_env {X} (e : rlstep X) (xr : X * Q) : Prop :=
  nth_error (rs_infos e) 0 = Some (fst xr) /\ nth_error (rs_rewards e) 0 = Some (snd xr).

(** A consecutive grouping of [data] by [N]: all groups but the last are full. *)
Definition grouped {A} (N : nat) (data : list A) (gs : list (list A)) : Prop :=
  concat gs = data /\
  forall i g, nth_error gs i = Some g -> 1 <= length g <= N /\ (S i < length gs -> length g = N).

(** A number that is an upper (lower) bound of a list and one of its elements. *)
Definition greatest (l : list Q) (y : Q) : Prop := In y l /\ forall x, In x l -> (x <= y)%Q.
Definition least (l : list Q) (y : Q) : Prop := In y l /\ forall x, In x l -> (y <= x)%Q.

(** Individuals equal coordinate by coordinate. *)
Definition same_indv (x y : list val) : Prop := Forall2 same x y.

(** A grid whose choices are all strings. *)
Definition string_grid (p : param) : Prop := exists cs, p = PGrid cs /\ forall c, In c cs -> exists s, c = VStr s.
