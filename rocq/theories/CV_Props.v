(** Properties of convolutional features. *)
From Coq Require Import Reals List Arith Bool Lia.
From Verif Require Import CV_Model CV_Spec CV_Proofs.
Import ListNotations.
Open Scope list_scope.
Open Scope nat_scope.

(** C133: a convolution without padding puts its filters at every [s]-th row and column where they fit, gives one number
    per filter there, the sum of pixels times weights and the bias of that filter, and raises if they fit nowhere. *)
Theorem C133_valid : forall fmt n f fh fw s w b x, filter_size f = Returns (fh, fw) ->
  (fh <= hh x /\ fw <= ww x -> exists y, conv fmt false VALID n f s w b x = Returns y /\ hh y = (hh x - fh) / s + 1 /\ ww y = (ww x - fw) / s + 1 /\ cc y = n /\
     forall i j k, i < hh y -> j < ww y -> s <> 0 -> px y i j k = (total fh (fun a => total fw (fun c => total (cc x) (fun ch => (px x (i * s + a) (j * s + c) ch * w a c ch k)%R))) + b k)%R) /\
  (~ (fh <= hh x /\ fw <= ww x) -> conv fmt false VALID n f s w b x = Raises).
Proof. exact conv_valid. Qed.
Print Assumptions C133_valid.
(** C133: a filter size given as a list of a length other than two raises. *)
Theorem C133_filters : forall fmt one pad n l s w b x, length l <> 2 -> conv fmt one pad n (inr l) s w b x = Raises.
Proof. exact conv_filters. Qed.
Print Assumptions C133_filters.
(** C133: with padding nothing raises, and the output is as large as the image divided by the stride, rounded up. *)
Theorem C133_same : forall fmt n f s w b x, s <> 0 -> exists y, conv fmt false SAME n (inl f) s w b x = Returns y /\ cc y = n /\
  (hh y * s < hh x + s /\ hh x <= hh y * s) /\ (ww y * s < ww x + s /\ ww x <= ww y * s).
Proof. exact conv_same. Qed.
Print Assumptions C133_same.
(** C133: with padding and stride 1 the filters are centred on the pixel. *)
Theorem C133_centred : forall fmt n f w b x, 1 <= f -> exists y, conv fmt false SAME n (inl f) 1 w b x = Returns y /\ hh y = hh x /\ ww y = ww x /\ cc y = n /\
  forall i j k m, m = (f - 1) / 2 -> m <= i -> i + f <= hh x + m -> m <= j -> j + f <= ww x + m ->
    px y i j k = (total f (fun a => total f (fun c => total (cc x) (fun ch => (px x (i + a - m) (j + c - m) ch * w a c ch k)%R))) + b k)%R.
Proof. exact conv_centred. Qed.
Print Assumptions C133_centred.
(** C133, finding: with one_dim_bias and NCHW the bias meets the width instead of the filters: the layer raises unless the
    width is the number of filters or one of both is 1, and if the width is the number of filters every column, not
    every filter, gets a bias of its own. *)
Theorem C133_bias_refuted : forall n f s w b x, f <= hh x -> f <= ww x -> let w' := (ww x - f) / s + 1 in
  (conv NCHW true VALID n (inl f) s w b x = Raises <-> w' <> n /\ n <> 1 /\ w' <> 1) /\
  (w' = n -> exists y z, conv NCHW true VALID n (inl f) s w b x = Returns y /\ conv NCHW false VALID n (inl f) s w (fun _ => 0%R) x = Returns z /\
     hh y = hh z /\ ww y = ww z /\ cc y = cc z /\ forall i j k, px y i j k = (px z i j k + b (if (n =? 1)%nat then 0%nat else j))%R).
Proof. exact bias_one_dim. Qed.
Print Assumptions C133_bias_refuted.
(** C133: the network for images takes those of at least 36 rows and 36 columns and raises for all others. *)
Theorem C133_accepts : forall p x, (exists v, nature_cnn p x = Returns v) <-> 36 <= hh x /\ 36 <= ww x.
Proof. exact cnn_accepts. Qed.
Print Assumptions C133_accepts.
(** C133: its last layer sees 64 numbers per place, row by row, with one place for every 8 pixels beyond the first 36, and gives
    numbers that are not negative. *)
Theorem C133_value : forall p x, 36 <= hh x -> 36 <= ww x -> exists y v, layers p x = Returns y /\ hh y = places (hh x) /\ ww y = places (ww x) /\ cc y = 64 /\ nature_cnn p x = Returns v /\
  forall u, v u = relu (total (places (hh x) * places (ww x) * 64) (fun q => (px y (q / (places (ww x) * 64)) (q / 64 mod places (ww x)) (q mod 64) * wf p q u)%R) + bf p u)%R /\ (0 <= v u)%R.
Proof. exact cnn_value. Qed.
Print Assumptions C133_value.
(** C133: what is found at a place depends only on the 36 rows and 36 columns seen from it. *)
Theorem C133_window : forall p x x' y y' i j, same_size x x' -> layers p x = Returns y -> layers p x' = Returns y' -> i < places (hh x) -> j < places (ww x) ->
  agree x x' (8 * i) (8 * i + 36) (8 * j) (8 * j + 36) -> forall k, px y i j k = px y' i j k.
Proof. exact cnn_window. Qed.
Print Assumptions C133_window.
(** C133: an image moved by a multiple of 8 pixels gives the same findings, moved by as many places. *)
Theorem C133_shift : forall p x y z h w di dj, h + 8 * di <= hh x -> w + 8 * dj <= ww x -> layers p x = Returns y -> layers p (window (8 * di) (8 * dj) h w x) = Returns z ->
  forall i j k, i < hh z -> j < ww z -> px z i j k = px y (i + di) (j + dj) k.
Proof. exact cnn_shift. Qed.
Print Assumptions C133_shift.
(** C133, finding: the rows and columns beyond the last place are never seen: images that differ only there have the same
    features. *)
Theorem C133_border_refuted : forall p x x' v v', same_size x x' -> agree x x' 0 (seen (hh x)) 0 (seen (ww x)) -> nature_cnn p x = Returns v -> nature_cnn p x' = Returns v' -> forall u, v u = v' u.
Proof. exact cnn_seen. Qed.
Print Assumptions C133_border_refuted.
