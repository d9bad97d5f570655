(** Convolutional features of images: conv and conv_to_fc (neorl/rl/baselines/shared/tf_layers.py:62-107, 216-225)
    and nature_cnn (shared/policies.py:16-29), for one image: a batch is done image by image.
    Numbers are reals.  An image is its height, width and number of channels with the number at each row, column
    and channel, whatever the order of the axes in memory. *)
From Coq Require Import Reals List Arith Bool Lia.
Import ListNotations.
Open Scope list_scope.
Open Scope nat_scope.

Record image := Img { hh : nat; ww : nat; cc : nat; px : nat -> nat -> nat -> R }.
Inductive outcome (A : Type) := Returns (x : A) | Raises.
Arguments Returns {A}. Arguments Raises {A}.
(** An exception ends what follows. *)
Definition bind {A B} (x : outcome A) (f : A -> outcome B) : outcome B := match x with Returns a => f a | Raises => Raises end.
Inductive format := NHWC | NCHW.
Inductive padding := VALID | SAME.

(** The sum of f 0 .. f (n-1). *)
Fixpoint total (n : nat) (f : nat -> R) : R := match n with 0 => 0%R | S m => (total m f + f m)%R end.
(** tf.nn.relu *)
Definition relu (x : R) : R := Rmax x 0.

(** The size of the output of tf.nn.conv2d in one direction, for a size [n], filters of [f] and the stride [s]; none:
    it raises, as the filter does not fit. *)
Definition out_size (pad : padding) (n f s : nat) : option nat :=
  match pad with VALID => if f <=? n then Some ((n - f) / s + 1) else None | SAME => Some ((n + s - 1) / s) end.
(** How many zeros are put before the first row or column. *)
Definition before (pad : padding) (n f s : nat) : nat :=
  match pad with VALID => 0 | SAME => (((n + s - 1) / s - 1) * s + f - n) / 2 end.
(** The image with zeros around it, [p] rows before and [q] columns before. *)
Definition padded (x : image) (p q i j c : nat) : R :=
  if (p <=? i) && (i <? p + hh x) && (q <=? j) && (j <? q + ww x) then px x (i - p) (j - q) c else 0%R.
(** tf.nn.conv2d (107): [w] gives the weight at a row, column, channel and filter. *)
Definition conv2d (pad : padding) (fh fw s : nat) (w : nat -> nat -> nat -> nat -> R) (x : image) (i j k : nat) : R :=
  total fh (fun a => total fw (fun b => total (cc x) (fun c =>
    (padded x (before pad (hh x) fh s) (before pad (ww x) fw s) (i * s + a) (j * s + b) c * w a b c k)%R))).
(** The sum of the bias, of shape [1, n, 1, 1] or [n], the former reshaped to [1, 1, 1, n] for NHWC (99, 105-107), and
    the convolution [y] of width [wd]: with NCHW and one dimension the axes that meet are the bias and the width. *)
Definition add_bias (fmt : format) (one_dim : bool) (n : nat) (bias : nat -> R) (y : image) : outcome image :=
  match fmt, one_dim with
  | NCHW, true =>
      if (ww y =? n) || (n =? 1) then Returns (Img (hh y) (ww y) (cc y) (fun i j k => (px y i j k + bias (if (n =? 1)%nat then 0%nat else j))%R))
      else if ww y =? 1 then Returns (Img (hh y) n (cc y) (fun i j k => (px y i 0%nat k + bias j)%R))
      else Raises
  | _, _ => Returns (Img (hh y) (ww y) (cc y) (fun i j k => (px y i j k + bias k)%R))
  end.
(** The height and width of the filters (79-86). *)
Definition filter_size (f : nat + list nat) : outcome (nat * nat) :=
  match f with inl f => Returns (f, f) | inr [a; b] => Returns (a, b) | inr _ => Raises end.
(** conv (62-107), for a positive stride. *)
Definition conv (fmt : format) (one_dim : bool) (pad : padding) (n : nat) (f : nat + list nat) (s : nat) (w : nat -> nat -> nat -> nat -> R) (bias : nat -> R) (x : image) : outcome image :=
  bind (filter_size f) (fun '(fh, fw) =>
  match out_size pad (hh x) fh s, out_size pad (ww x) fw s with
  | Some h', Some w' => add_bias fmt one_dim n bias (Img h' w' n (conv2d pad fh fw s w x))
  | _, _ => Raises
  end).

(** The weights and biases of nature_cnn. *)
Record params := Params { w1 : nat -> nat -> nat -> nat -> R; b1 : nat -> R; w2 : nat -> nat -> nat -> nat -> R; b2 : nat -> R;
  w3 : nat -> nat -> nat -> nat -> R; b3 : nat -> R; wf : nat -> nat -> R; bf : nat -> R }.
(** An activation. *)
Definition activ (y : image) : image := Img (hh y) (ww y) (cc y) (fun i j k => relu (px y i j k)).
(** One layer with the keywords at their defaults (62-63). *)
Definition layer (n f s : nat) (w : nat -> nat -> nat -> nat -> R) (b : nat -> R) (x : image) : outcome image :=
  bind (conv NHWC false VALID n (inl f) s w b x) (fun y => Returns (activ y)).
(** layer_1 to layer_3 (policies.py:24-27). *)
Definition layers (p : params) (x : image) : outcome image :=
  bind (layer 32 8 4 (w1 p) (b1 p) x) (fun y1 => bind (layer 64 4 2 (w2 p) (b2 p) y1) (fun y2 => layer 64 3 1 (w3 p) (b3 p) y2)).
(** conv_to_fc (tf_layers.py:216-225): row by row, column by column, channel by channel. *)
Definition flat (y : image) : nat * (nat -> R) :=
  (hh y * ww y * cc y, fun q => px y (q / (ww y * cc y)) (q / cc y mod ww y) (q mod cc y)).
(** nature_cnn (16-29): the 512 features. *)
Definition nature_cnn (p : params) (x : image) : outcome (nat -> R) :=
  bind (layers p x) (fun y => let '(n, v) := flat y in Returns (fun u => relu (total n (fun q => (v q * wf p q u)%R) + bf p u)%R)).
