(** What C120 is stated with. *)
From Coq Require Import String List Arith QArith Bool.
From Verif Require Import OB_Model.
Import ListNotations.
Open Scope list_scope. Open Scope nat_scope.

(** The keys of a space: none for a box, the numbers of a tuple, the names of a dictionary; with their boxes. *)
Definition entry (s : space) (k : key) (b : box) : Prop :=
  match s, k with
  | SBox c, KNone => b = c
  | STup l, KNum i => nth_error l i = Some b
  | SDict d, KName n => In (n, b) d
  | _, _ => False
  end.
(** The names of a dictionary space are different. *)
Definition good_space (s : space) : Prop := match s with SDict d => NoDup (map fst d) | _ => True end.
(** An observation has, for every key of the space, an array of the right shape. *)
Definition fits (s : space) (o : obs) : Prop :=
  forall k b, entry s k b -> exists a, part k o = Some a /\ shape a = fst b /\ length (data a) = size (fst b).
(** Its numbers are numbers of the dtype. *)
Definition typed (cast : dtype -> Q -> Q) (s : space) (o : obs) : Prop :=
  forall k b a, entry s k b -> part k o = Some a -> map (cast (snd b)) (data a) = data a.
(** A combined observation is of the kind of the space and has exactly its keys, in the same order. *)
Definition keys_of (s : space) (r : obs) : Prop :=
  match s, r with
  | SBox _, OArr _ => True
  | STup l, OTup m => length m = length l
  | SDict d, ODict m => map fst m = map fst d
  | _, _ => False
  end.
(** Row i of an array. *)
Definition row (i : nat) (a : arr) : list Q := let n := size (tl (shape a)) in firstn n (skipn (i * n) (data a)).
(** Buffers as they are at any time: the keys of the space with a row for each of the n environments. *)
Definition buffers_of (s : space) (n : nat) (bufs : list (key * buffer)) : Prop :=
  map (fun p => (fst p, fst (snd p))) bufs = info s /\ Forall (fun p => length (snd (snd p)) = n) bufs.

(** A dimension that fills another: it is equal or one. *)
Definition matches (a b : nat) : Prop := a = b \/ a = 1.
(** The shape [v] fills the shape [t] by the rules of numpy: dimensions are compared from the last one; missing
    ones in front count as one, and superfluous ones in front must be one. *)
Definition fills (t v : list nat) : Prop :=
  (length v <= length t /\ Forall2 matches v (skipn (length t - length v) t)) \/
  (length t < length v /\ Forall (eq 1) (firstn (length v - length t) v) /\ Forall2 matches (skipn (length v - length t) v) t).
