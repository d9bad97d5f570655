(** The initial weights of the layers: ortho_init (neorl/rl/baselines/shared/tf_layers.py:5-43) and the layer that starts with
    them, linear (110-126).  Numbers are those of any real closed field; casting to float32 is left out. *)
From mathcomp Require Import all_ssreflect all_algebra.
Set Implicit Arguments. Unset Strict Implicit. Unset Printing Implicit Defensive.
Import GRing.Theory Num.Theory.
Local Open Scope ring_scope.

(** flat_shape (30-36): other shapes raise NotImplementedError. *)
Definition flat_shape (shape : seq nat) : option (nat * nat) :=
  match shape with
  | [:: a; b] => Some (a, b)
  | [:: a; b; c; d] => Some ((a * b * c)%N, d)
  | _ => None
  end.

Section Ortho.
Variable R : rcfType.

(** numpy.linalg.svd with full_matrices=False (38): the first and the third result for a matrix of m rows and n columns; it and
    the noise (37) are given. *)
Definition svd_t := forall m n, 'M[R]_(m, n) -> 'M[R]_(m, minn m n) * 'M[R]_(minn m n, n).
(** u if u.shape == flat_shape else v (39), scaled (41): [conform_mx B A] is A if it has the shape of B, and B otherwise. *)
Definition weights (svd : svd_t) (scale : R) m n (noise : 'M[R]_(m, n)) : 'M[R]_(m, n) :=
  let: (u, v) := svd m n noise in scale *: conform_mx (conform_mx 0 v) u.
(** _ortho_init (14-41): the entries are in the order of the flat matrix, which is that of the shape (40). *)
Definition ortho_init (svd : svd_t) (scale : R) (noise : forall m n, 'M[R]_(m, n)) (shape : seq nat) : option {mn : nat * nat & 'M[R]_(mn.1, mn.2)} :=
  if flat_shape shape is Some mn then Some (existT (fun mn : nat * nat => 'M[R]_(mn.1, mn.2)) mn (weights svd scale (noise mn.1 mn.2))) else None.
(** The place of an entry of a weight of four dimensions in the flat matrix: its row. *)
Definition flat_row (b c i j k : nat) : nat := ((i * b + j) * c + k)%N.
(** linear (110-126) before the first step of training: inputs in rows, the bias is one number. *)
Definition linear (svd : svd_t) (scale bias : R) m n (noise : 'M[R]_(m, n)) b (X : 'M[R]_(b, m)) : 'M[R]_(b, n) := X *m weights svd scale noise + const_mx bias.
End Ortho.
