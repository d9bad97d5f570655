(** C120: the observations of several environments (see properties.jsonl). *)
From Coq Require Import String List Arith QArith Bool.
From Verif Require Import OB_Model OB_Spec OB_Proofs OB_Demo OB_Final.
Import ListNotations.
Open Scope list_scope. Open Scope nat_scope.

(** C120: from observations that fit the space, whether run in one process or in several, the same combined observation is made. *)
Theorem C120_same : forall cast s os, good_space s -> os <> [] -> (forall o, In o os -> fits s o) -> (forall o, In o os -> typed cast s o) ->
  exists r, dummy_obs cast s os = Some r /\ flatten_obs s os = Some r.
Proof. exact same. Qed.
Print Assumptions C120_same.

(** C120: it has exactly the keys of the space, in the same order, and for each an array with a row for every environment: row i is what environment i gave, in the dtype of the space. *)
Theorem C120_rows : forall cast s os, good_space s -> (forall o, In o os -> fits s o) ->
  exists r, dummy_obs cast s os = Some r /\ keys_of s r /\
  forall k b, entry s k b -> exists A, part k r = Some A /\ shape A = length os :: fst b /\
    forall i o a, nth_error os i = Some o -> part k o = Some a -> row i A = map (cast (snd b)) (data a).
Proof. exact dummy_facts. Qed.
Print Assumptions C120_rows.

(** C120: it does not depend on earlier observations. *)
Theorem C120_history : forall cast s os bufs, good_space s -> buffers_of s (length os) bufs -> (forall o, In o os -> fits s o) -> dummy_next cast s bufs os = dummy_obs cast s os.
Proof. exact history. Qed.
Print Assumptions C120_history.

(** C120: the buffers are those of the space and the environments before the first round and after every one. *)
Theorem C120_buffers : forall cast s, (forall n, buffers_of s n (buffers s n)) /\
  (forall os bufs b', buffers_of s (length os) bufs -> (forall o, In o os -> fits s o) -> save_all cast 0 os bufs = Some b' -> buffers_of s (length os) b').
Proof. exact (fun cast s => conj (fresh_buffers s) (kept cast s)). Qed.
Print Assumptions C120_buffers.

(** C120: in several processes arrays of different shapes are never accepted. *)
Theorem C120_shapes : forall s os k b i j o p a c, flatten_obs s os <> None -> entry s k b -> nth_error os i = Some o -> nth_error os j = Some p ->
  part k o = Some a -> part k p = Some c -> shape a = shape c.
Proof. exact flatten_shapes. Qed.
Print Assumptions C120_shapes.

(** C120: with numbers that are not of the dtype of the space the two differ: one process converts them, several do not. *)
Theorem C120_dtype_refuted : exists s os r1 r2, good_space s /\ (forall o, In o os -> fits s o) /\ dummy_obs icast s os = Some r1 /\ flatten_obs s os = Some r2 /\ r1 <> r2.
Proof. exact cast_differs. Qed.
Print Assumptions C120_dtype_refuted.

(** C120: with arrays of another shape they differ too: one process repeats the numbers to fill its row, several give the array as it is, or raise if the shapes are different. *)
Theorem C120_shape_refuted : forall cast x y, (forall q, cast 0 q = q) ->
  let wide := SBox ([3], 0) in let narrow := OArr (Arr [1] [x]) in let full := OArr (Arr [3] [y; y; y]) in
  dummy_obs cast wide [narrow] = Some (OArr (Arr [1; 3] [x; x; x])) /\ flatten_obs wide [narrow] = Some (OArr (Arr [1; 1] [x])) /\
  dummy_obs cast wide [narrow; full] = Some (OArr (Arr [2; 3] [x; x; x; y; y; y])) /\ flatten_obs wide [narrow; full] = None.
Proof. exact broadcast_differs. Qed.
Print Assumptions C120_shape_refuted.

(** C120: in one process an array is accepted exactly if it fills the shape of the space by the rules of numpy. *)
Theorem C120_fills : forall cast t dt a, Forall (lt 0) t -> (dummy_obs cast (SBox (t, dt)) [OArr a] <> None <-> fills t (shape a)).
Proof. exact row_accepts. Qed.
Print Assumptions C120_fills.
