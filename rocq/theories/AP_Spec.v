(** What predict and action_probability should answer, without reference to the model's own computations. *)
From Coq Require Import List Arith ZArith Reals Lra.
From Verif Require Import AP_Model PD_Spec LS_Spec.
Import ListNotations.
Open Scope R_scope.

(** The number of entries of one observation. *)
Definition width (s : ospace) : nat := fold_right Nat.mul 1%nat (oshape s).
(** Observations of the right size. *)
Definition observations {O} (s : ospace) (rows : list (list O)) : Prop := Forall (fun r => length r = width s) rows.
(** y is the action x, kept within the bounds if the actions form a Box. *)
Definition bounded (a : aspace) (x y : list R) : Prop :=
  match a with
  | ABox low high => length y = length x /\ forall i, (i < length x)%nat -> kept_within (nth i x 0) (nth i low 0) (nth i high 0) (nth i y 0)
  | _ => y = x
  end.
(** The bounds of a Box are in order and as many as an action has entries. *)
Definition box_ok (a : aspace) (x : list R) : Prop :=
  match a with
  | ABox low high => length low = length x /\ length high = length x /\ forall i, (i < length x)%nat -> nth i low 0 <= nth i high 0
  | _ => True
  end.
(** f applied to every number of the answer. *)
Definition on_answer (f : R -> R) (o : option (answer R)) : option (answer R) :=
  match o with None => None | Some (One x) => Some (One (f x)) | Some (Many l) => Some (Many (map f l)) end.
(** The probabilities of the first i actions, added up. *)
Definition below (l : list R) (i : nat) : R := total (map (prob l) (actions i)).
