(** What C121 is stated with. *)
From Coq Require Import List Arith Bool.
From Verif Require Import TI_Model.
Import ListNotations.
Open Scope nat_scope.

(** h rows of w pixels. *)
Definition shaped {P} (h w : nat) (i : list (list P)) : Prop := length i = h /\ forall r, In r i -> length r = w.
(** The pixel in row y and column x, if there is one. *)
Definition pixel {P} (i : list (list P)) (y x : nat) : option P := match nth_error i y with Some r => nth_error r x | None => None end.
(** The pixel of image k of the list. *)
Definition pixel_of {P} (l : list (list (list P))) (k y x : nat) : option P := match nth_error l k with Some i => pixel i y x | None => None end.
