(** Noise: C127. *)
From Coq Require Import Reals List.
From Verif Require Import NZ_Model NZ_Spec NZ_Proofs.
Import ListNotations.
Open Scope R_scope.

(** C127: after any calls and resets, and changes of arrays other than the last returned one and initial_noise, the noise is that of the
    process of Ornstein and Uhlenbeck for the draws since the last reset, from initial_noise or zero. *)
Theorem C127_walk : forall o ms h n ps, mu o = Vector ms -> length (sigma o) = length ms -> draws (length ms) ps ->
  (forall a, initial_noise o = Some a -> (a < n)%nat /\ length (h a) = length ms) ->
  careful o ps (construct o h n) ->
  exists w, run o ps (construct o h n) = Some w /\ length (noise w) = length ms
    /\ forall j, (j < length ms)%nat -> nth j (noise w) 0
        = walk (theta o) (dt o) (nth j ms 0) (nth j (sigma o) 0) (nth j (origin o h (length ms)) 0) (component_of j (since ps [])).
Proof. exact walks. Qed.
Print Assumptions C127_walk.

(** C127: with bounded draws it stays within bounds around the mean, and forgets where it started, if |1 - theta dt| < 1. *)
Theorem C127_bounded : forall th d m s x0 zs B r, Rabs (1 - th * d) <= r < 1 -> 0 <= B -> Forall (fun z => Rabs z <= B) zs ->
  Rabs (walk th d m s x0 zs - m) <= r ^ length zs * Rabs (x0 - m) + Rabs s * sqrt d * (B / (1 - r)).
Proof. exact walk_bounded. Qed.
Print Assumptions C127_bounded.

(** C127: if theta dt > 2, which is accepted, it does not revert to the mean, but leaves all bounds even without any draws. *)
Theorem C127_unstable_refuted : forall th d m s x0, 2 < th * d -> x0 <> m -> forall M, exists k, M < Rabs (walk th d m s x0 (repeat 0 k) - m).
Proof. exact walk_unstable. Qed.
Print Assumptions C127_unstable_refuted.

(** C127: a float as the mean, as documented, raises AttributeError at every call. *)
Theorem C127_float_raises : forall o x z w, mu o = Scalar x -> call o z w = None.
Proof. exact float_raises. Qed.
Print Assumptions C127_float_raises.

(** C127: the returned array is the state: changing it in place, such as scaling it, changes the next noise. *)
Theorem C127_returned_refuted : exists o w w' a z, (run o [Call z] (construct o (fun _ => []) 0) = Some w) /\ prev w = a
  /\ run o [Call z; Write a [100]] (construct o (fun _ => []) 0) = Some w'
  /\ (exists u, run o [Call [0]] w = Some u /\ noise u = [1 / 2]) /\ exists u, run o [Call [0]] w' = Some u /\ noise u = [50].
Proof. exact returned_shared. Qed.
Print Assumptions C127_returned_refuted.

(** C127: after a reset the state is initial_noise itself: a change of it in place changes where later resets go to. *)
Theorem C127_initial_refuted : exists o h w w', initial_noise o = Some 0%nat /\ h 0%nat = [7]
  /\ run o [Reset] (construct o h 1) = Some w /\ noise w = [7]
  /\ run o [Write (prev (construct o h 1)) [100]; Call [0]; Reset] (construct o h 1) = Some w' /\ noise w' = [100].
Proof. exact initial_shared. Qed.
Print Assumptions C127_initial_refuted.

(** C127: adaptive noise: the stddev is the initial one divided by the coefficient once for each distance above the desired one, and
    multiplied by it once for each other. *)
Theorem C127_adapt : forall i d c ds, c <> 0 ->
  current (adapts (make_spec i d c) ds) = i * c ^ count (fun x => negb (above d x)) ds / c ^ count (above d) ds.
Proof. exact adapted. Qed.
Print Assumptions C127_adapt.

(** C127: if the distance exceeds the desired one just when the stddev exceeds t, the stddev gets within a factor of the coefficient of t
    and stays there. *)
Theorem C127_settles : forall f i d c t, 1 < c -> 0 < t -> 0 < i -> (forall x, 0 < x -> (d < f x <-> t < x)) ->
  exists k0, forall k, (k0 <= k)%nat -> t / c < current (loop f k (make_spec i d c)) <= t * c.
Proof. exact settles. Qed.
Print Assumptions C127_settles.

(** C127: a coefficient below 1 is accepted, and makes a stddev that is too great grow for ever. *)
Theorem C127_coefficient_refuted : forall f i d c t, 0 < c < 1 -> 0 < t < i -> (forall x, 0 < x -> (d < f x <-> t < x)) ->
  forall k, current (loop f k (make_spec i d c)) = i / c ^ k.
Proof. exact small_coefficient. Qed.
Print Assumptions C127_coefficient_refuted.
