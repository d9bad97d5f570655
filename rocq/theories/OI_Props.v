(** C130: encoding of observations. *)
From Coq Require Import QArith ZArith List Bool Lia.
From Verif Require Import OI_Model OI_Spec OI_Proofs OI_Demo.
Import ListNotations.
Open Scope list_scope.
Open Scope nat_scope.

(** C130: a batch is encoded row by row, in order. *)
Theorem C130_rows : forall sp batch scale rows out, observation_input sp batch scale rows = Returns out ->
  length out = length rows /\ forall k o, nth_error rows k = Some o -> exists v, nth_error out k = Some v /\ encodes_to sp scale o v.
Proof. exact by_rows. Qed.
Print Assumptions C130_rows.

(** C130: it is taken exactly if the space has an encoding, the batch has the given size, if one is given, and
    every row has the shape of the space; no value is checked. *)
Theorem C130_accepts : forall sp batch scale rows, (exists out, observation_input sp batch scale rows = Returns out) <->
  sp <> Other /\ sp <> MultiDiscrete [] /\ (forall n, batch = Some n -> length rows = n) /\ Forall (shaped sp) rows.
Proof. exact accepts_iff. Qed.
Print Assumptions C130_accepts.

(** C130: an observation of a Discrete space becomes n numbers, one at its own place and zero elsewhere. *)
Theorem C130_discrete : forall n scale z v, encodes_to (Discrete n) scale (One z) v -> length v = n /\ forall i, i < n -> nth_error v i = Some (indicator z i).
Proof. exact discrete. Qed.
Print Assumptions C130_discrete.

(** C130: a value outside of a Discrete space is not refused: it becomes all zeros, whatever it is. *)
Theorem C130_outside_refuted : forall n scale z, ~ contains (Discrete n) (One z) -> encodes_to (Discrete n) scale (One z) (repeat (Num 0) n).
Proof. exact outside. Qed.
Print Assumptions C130_outside_refuted.

(** C130: an observation of a MultiDiscrete space becomes the blocks of its components, one after another. *)
Theorem C130_multi : forall nvec scale l v, encodes_to (MultiDiscrete nvec) scale (Ints l) v ->
  length v = list_sum nvec /\ forall k n z i, nth_error nvec k = Some n -> nth_error l k = Some z -> i < n -> nth_error v (list_sum (firstn k nvec) + i) = Some (indicator z i).
Proof. exact multi. Qed.
Print Assumptions C130_multi.

(** C130: a MultiBinary observation is passed on as it is. *)
Theorem C130_binary : forall n scale l v, encodes_to (MultiBinary n) scale (Ints l) v -> v = map (fun z => Num (inject_Z z)) l.
Proof. exact binary. Qed.
Print Assumptions C130_binary.

(** C130: without scaling so is one of a Box, of floats ... *)
Theorem C130_unscaled : forall b l v, encodes_to (BoxF b) false (Floats l) v -> v = map Num l.
Proof. exact unscaled. Qed.
Print Assumptions C130_unscaled.

(** C130: ... or of integers. *)
Theorem C130_unscaled_int : forall sg bits b l v, encodes_to (BoxI sg bits b) false (Ints l) v -> v = map (fun z => Num (inject_Z z)) l.
Proof. exact unscaled_int. Qed.
Print Assumptions C130_unscaled_int.

(** C130: policies with MLP features never scale. *)
Theorem C130_mlp : forall b n l out, policy_input Mlp (BoxF b) n (map Floats l) = Returns out -> out = map (map Num) l.
Proof. exact mlp_box. Qed.
Print Assumptions C130_mlp.

(** C130: with scaling and finite bounds a component whose bounds differ becomes its place between them, ... *)
Theorem C130_scaled : forall b l v, encodes_to (BoxF b) true (Floats l) v -> Forall finite b -> Exists (fun p => ~ pinned p) b ->
  forall k x lo hi, nth_error l k = Some x -> nth_error b k = Some (Fin lo, Fin hi) -> ~ (lo == hi)%Q -> nth_error v k = Some (Num (place lo hi x)).
Proof. exact scaled. Qed.
Print Assumptions C130_scaled.

(** C130: ... which is zero and one at the bounds, keeps the order, and is within [0,1] exactly for values within
    the bounds. *)
Theorem C130_place : forall l h, (l < h)%Q -> (place l h l == 0 /\ place l h h == 1)%Q /\ (forall x y, (x < y)%Q <-> (place l h x < place l h y)%Q) /\
  forall x, (0 <= place l h x <= 1)%Q <-> (l <= x <= h)%Q.
Proof. exact place_spec. Qed.
Print Assumptions C130_place.

(** C130: one infinite bound leaves all components unscaled, ... *)
Theorem C130_infinite : forall b l v, Exists (fun p => ~ finite p) b -> encodes_to (BoxF b) true (Floats l) v -> v = map Num l.
Proof. exact infinite. Qed.
Print Assumptions C130_infinite.

(** C130: ... and so do bounds that all coincide. *)
Theorem C130_flat : forall b l v, Forall pinned b -> encodes_to (BoxF b) true (Floats l) v -> v = map Num l.
Proof. exact flat. Qed.
Print Assumptions C130_flat.

(** C130: if the bounds of some components coincide and those of another differ, an observation of the space
    becomes nan in the former. *)
Theorem C130_mixed_refuted : (forall b l v, encodes_to (BoxF b) true (Floats l) v -> contains (BoxF b) (Floats l) -> Forall finite b -> Exists (fun p => ~ pinned p) b ->
  forall k p, nth_error b k = Some p -> pinned p -> nth_error v k = Some NaN) /\
  contains (BoxF [(Fin 2, Fin 2); (Fin 0, Fin 1)]) (Floats [2%Q; 1%Q]) /\ encodes_to (BoxF [(Fin 2, Fin 2); (Fin 0, Fin 1)]) true (Floats [2%Q; 1%Q]) [NaN; Num (place 0 1 1)].
Proof. exact (conj mixed mixed_demo). Qed.
Print Assumptions C130_mixed_refuted.

(** C130: integers are scaled the same way if the width of the bounds is a value of their type. *)
Theorem C130_integer : forall sg bits b l v, encodes_to (BoxI sg bits b) true (Ints l) v -> (1 <= bits)%Z ->
  forall k x lo hi, nth_error l k = Some x -> nth_error b k = Some (lo, hi) -> (0 < hi - lo < 2 ^ (if sg then bits - 1 else bits))%Z ->
  exists q, nth_error v k = Some (Num q) /\ (q == place (inject_Z lo) (inject_Z hi) (inject_Z x))%Q.
Proof. exact integer. Qed.
Print Assumptions C130_integer.

(** C130: with wider bounds of a signed type every value above the lower bound becomes negative: for int8 from
    -128 to 127, the value 127 becomes -255. *)
Theorem C130_wrap_refuted : (forall bits b l v, encodes_to (BoxI true bits b) true (Ints l) v -> (1 <= bits)%Z ->
  forall k x lo hi, nth_error l k = Some x -> nth_error b k = Some (lo, hi) -> (2 ^ (bits - 1) <= hi - lo < 2 ^ bits)%Z -> (lo < x <= hi)%Z ->
  exists q, nth_error v k = Some (Num q) /\ (q < 0)%Q) /\
  encodes_to (BoxI true 8 [((-128)%Z, 127%Z)]) true (Ints [127%Z]) [Num (inject_Z 255 / inject_Z (-1))].
Proof. exact (conj wraps byte_demo). Qed.
Print Assumptions C130_wrap_refuted.

(** C130: different observations of a space with proper bounds have different encodings. *)
Theorem C130_injective : forall sp scale o o' v v', good_bounds sp -> contains sp o -> contains sp o' -> encodes_to sp scale o v -> encodes_to sp scale o' v' ->
  Forall2 same_num v v' -> same_obs o o'.
Proof. exact injective. Qed.
Print Assumptions C130_injective.
