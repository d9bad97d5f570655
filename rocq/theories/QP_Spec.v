(** What is claimed of power splits. *)
From Coq Require Import List Reals.
From Verif Require Import QP_Model.
Import ListNotations.
Open Scope R_scope.

(** These numbers, all finite. *)
Definition finite (l : list number) (v : list R) : Prop := l = map Num v.
Definition is_number (x : number) : Prop := exists r, x = Num r.
