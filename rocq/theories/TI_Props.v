(** C121: one image of those of all environments (see properties.jsonl). *)
From Coq Require Import List Arith Bool.
From Verif Require Import TI_Model TI_Spec TI_Proofs TI_Demo.
Import ListNotations.
Open Scope nat_scope.

(** C121: an image is made exactly if there are images and all have the same shape. *)
Theorem C121_accepts : forall {P} (blank : P) l, (exists t, tile_images blank l = Some t) <-> l <> [] /\ exists h w, forall i, In i l -> shaped h w i.
Proof. exact @tile_images_iff. Qed.
Print Assumptions C121_accepts.

(** C121: its size, and every pixel: image number k, counted along the rows, is at row k / W and column k mod W of a grid of H rows and W columns; places without an image are blank. *)
Theorem C121_pixels : forall {P} (blank : P) l h w t, tile_images blank l = Some t -> (forall i, In i l -> shaped h w i) -> 0 < h -> 0 < w ->
  let H := new_height (length l) in let W := new_width (length l) in
  shaped (H * h) (W * w) t /\
  forall y x, y < H * h -> x < W * w -> pixel t y x = let k := (y / h) * W + x / w in if k <? length l then pixel_of l k (y mod h) (x mod w) else Some blank.
Proof. exact @tiled. Qed.
Print Assumptions C121_pixels.

(** C121: every pixel of every image is shown, where its place in the grid says. *)
Theorem C121_shown : forall {P} (blank : P) l h w t, tile_images blank l = Some t -> (forall i, In i l -> shaped h w i) -> 0 < h -> 0 < w ->
  forall k y x, k < length l -> y < h -> x < w ->
    pixel t ((k / new_width (length l)) * h + y) ((k mod new_width (length l)) * w + x) = pixel_of l k y x.
Proof. exact @shown. Qed.
Print Assumptions C121_shown.

(** C121: the grid has room for all images, is square or has one row more than columns, and no row is empty. *)
Theorem C121_grid : forall n, 0 < n ->
  let H := new_height n in let W := new_width n in
  n <= H * W /\ W <= H /\ H <= W + 1 /\ (H - 1) * W < n /\ 0 < W.
Proof. exact grid. Qed.
Print Assumptions C121_grid.

(** C121: a square number of images gives a square without blanks. *)
Theorem C121_square : forall k, 0 < k -> new_height (k * k) = k /\ new_width (k * k) = k.
Proof. exact grid_square. Qed.
Print Assumptions C121_square.
