(** Model of tile_images (neorl/rl/baselines/shared/tile_images.py), which makes one image of those of the
    environments (vec_env/base_vec_env.py:146-170).

    An image is a list of rows of pixels; [blank] is the pixel of zeros. *)
From Coq Require Import List Arith Bool.
Import ListNotations.
Open Scope nat_scope.

Section Tile.
Context {P : Type}.
Variable blank : P.
Definition image := list (list P).
(** np.asarray and the shape (14-15): all images have h rows of w pixels. *)
Definition of_shape (h w : nat) (i : image) : bool := (length i =? h) && forallb (fun r => length r =? w) i.
(** new_height: int(np.ceil(np.sqrt(n))) (17); new_width: int(np.ceil(float(n) / new_height)) (19).  Exact. *)
Definition new_height (n : nat) : nat := Nat.sqrt_up n.
Definition new_width (n : nat) : nat := (n + new_height n - 1) / new_height n.
(** The blank images added (20). *)
Definition padded (h w : nat) (l : list image) : list image :=
  l ++ repeat (repeat (repeat blank w) h) (new_height (length l) * new_width (length l) - length l).
(** reshape to new_height rows of new_width images (22). *)
Fixpoint rows_of (k width : nat) (l : list image) : list (list image) :=
  match k with 0 => [] | S k' => firstn width l :: rows_of k' width (skipn width l) end.
(** transpose and the second reshape (24-26): the pixel rows of a row of images side by side. *)
Definition beside (h : nat) (row : list image) : image := map (fun y => flat_map (fun i => nth y i []) row) (seq 0 h).
Definition tile (h w : nat) (l : list image) : image :=
  flat_map (beside h) (rows_of (new_height (length l)) (new_width (length l)) (padded h w l)).
(** tile_images; [None]: no images, or images of different shapes, raise (15).  The shape is that of the first image. *)
Definition tile_images (l : list image) : option image :=
  match l with
  | [] => None
  | i :: _ =>
      let h := length i in let w := match i with r :: _ => length r | [] => 0 end in
      if forallb (of_shape h w) l then Some (tile h w l) else None
  end.
End Tile.
