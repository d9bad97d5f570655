(** Properties of the initial weights. *)
From mathcomp Require Import all_ssreflect all_algebra.
From Verif Require Import OW_Model OW_Spec OW_Proofs.
Set Implicit Arguments. Unset Strict Implicit. Unset Printing Implicit Defensive.
Import GRing.Theory Num.Theory.
Local Open Scope ring_scope.

(** C134: weights of two and of four dimensions can be made, with the first three of four taken together, and for any
    other number of dimensions it raises. *)
Theorem C134_shapes : forall (R : rcfType) (svd : svd_t R) (scale : R) (noise : forall m n, 'M[R]_(m, n)) (shape : seq nat),
  ((size shape = 2)%N \/ (size shape = 4)%N <-> exists W, ortho_init svd scale noise shape = Some W) /\
  (forall a b, ortho_init svd scale noise [:: a; b] = Some (existT (fun mn : nat * nat => 'M[R]_(mn.1, mn.2)) (a, b) (weights svd scale (noise a b)))) /\
  (forall a b c d, ortho_init svd scale noise [:: a; b; c; d] = Some (existT (fun mn : nat * nat => 'M[R]_(mn.1, mn.2)) ((a * b * c)%N, d) (weights svd scale (noise (a * b * c)%N d)))).
Proof. exact shapes. Qed.
Print Assumptions C134_shapes.
(** C134: every entry of a weight of four dimensions has a row of its own. *)
Theorem C134_entries : forall a b c i j k i' j' k' : nat, (j < b)%N -> (k < c)%N -> (j' < b)%N -> (k' < c)%N -> (i < a)%N ->
  (flat_row b c i j k < a * b * c)%N /\ (flat_row b c i j k = flat_row b c i' j' k' -> [/\ i = i', j = j' & k = k']).
Proof. exact rows_flat. Qed.
Print Assumptions C134_entries.
(** C134: with no more outputs than inputs the columns are orthogonal to each other and of length scale. *)
Theorem C134_columns : forall (R : rcfType) (svd : svd_t R) (scale : R) m n (noise : 'M[R]_(m, n)), is_svd svd -> (n <= m)%N ->
  (weights svd scale noise)^T *m weights svd scale noise = (scale ^+ 2)%:M.
Proof. exact weights_cols. Qed.
Print Assumptions C134_columns.
(** C134: with no fewer outputs than inputs the rows are orthogonal to each other and of length scale. *)
Theorem C134_rows : forall (R : rcfType) (svd : svd_t R) (scale : R) m n (noise : 'M[R]_(m, n)), is_svd svd -> (m <= n)%N ->
  weights svd scale noise *m (weights svd scale noise)^T = (scale ^+ 2)%:M.
Proof. exact weights_rows. Qed.
Print Assumptions C134_rows.
(** C134: so no input is made longer than scale times its length, and with no fewer outputs than inputs it is
    made exactly as long. *)
Theorem C134_lengths : forall (R : rcfType) (svd : svd_t R) (scale : R) m n (noise : 'M[R]_(m, n)) (x : 'rV[R]_m), is_svd svd ->
  ((m <= n)%N -> len2 (x *m weights svd scale noise) = scale ^+ 2 * len2 x) /\ len2 (x *m weights svd scale noise) <= scale ^+ 2 * len2 x.
Proof. exact keeps_length. Qed.
Print Assumptions C134_lengths.
(** C134: before training the same is true of the distance between the outputs of a layer for any two inputs of a batch. *)
Theorem C134_distances : forall (R : rcfType) (svd : svd_t R) (scale bias : R) m n (noise : 'M[R]_(m, n)) b (X : 'M[R]_(b, m)) i j, is_svd svd ->
  let Y := linear svd scale bias noise X in
  ((m <= n)%N -> len2 (row i Y - row j Y) = scale ^+ 2 * len2 (row i X - row j X)) /\ len2 (row i Y - row j Y) <= scale ^+ 2 * len2 (row i X - row j X).
Proof. exact keeps_distance. Qed.
Print Assumptions C134_distances.
