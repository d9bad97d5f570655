(** What is claimed of the convolutional features. *)
From Coq Require Import Reals List Arith Bool Lia.
From Verif Require Import CV_Model.
Import ListNotations.
Open Scope list_scope.
Open Scope nat_scope.

(** Two images of the same size. *)
Definition same_size (x y : image) : Prop := hh x = hh y /\ ww x = ww y /\ cc x = cc y.
(** They agree on the rows from [r] to below [r'] and the columns from [c] to below [c']. *)
Definition agree (x y : image) (r r' c c' : nat) : Prop := forall i j k, r <= i < r' -> c <= j < c' -> k < cc x -> px x i j k = px y i j k.
(** The window of [x] of this size that starts [di] rows and [dj] columns later. *)
Definition window (di dj h w : nat) (x : image) : image := Img h w (cc x) (fun i j k => px x (i + di) (j + dj) k).
(** The number of places of the filters of nature_cnn in one direction: one for every 8 pixels beyond the 36 that
    are seen from one place. *)
Definition places (n : nat) : nat := (n - 36) / 8 + 1.
(** The rows that are seen from some place. *)
Definition seen (n : nat) : nat := 36 + 8 * ((n - 36) / 8).
