(** What mini-batches should be. *)
From Coq Require Import List Arith Bool Permutation.
Import ListNotations.
Open Scope nat_scope.

(** The batch consists of the rows [idx] of the data, in all columns alike. *)
Definition picks {K A} (data : list (K * list A)) (idx : list nat) (batch : list (K * list A)) : Prop :=
  Forall2 (fun kc kb => fst kb = fst kc /\ Forall2 (fun i x => nth_error (snd kc) i = Some x) idx (snd kb)) data batch.
Definition picks_arrays {A} (arrays : list (list A)) (idx : list nat) (batch : list (list A)) : Prop :=
  Forall2 (fun c b => Forall2 (fun i x => nth_error c i = Some x) idx b) arrays batch.

(** Every row once; in the given order when not shuffled. *)
Definition epoch (n : nat) (shuffle : bool) (p : list nat) : Prop := Permutation (seq 0 n) p /\ (shuffle = false -> p = seq 0 n).
(** [l] goes through whole epochs, and then through the beginning of one more. *)
Definition epochs (n : nat) (shuffle : bool) (l : list nat) : Prop :=
  exists ps q r, l = concat ps ++ q /\ Forall (epoch n shuffle) ps /\ epoch n shuffle (q ++ r).

(** All columns have [n] rows. *)
Definition table {K A} (n : nat) (data : list (K * list A)) : Prop := data <> [] /\ Forall (fun kc => length (snd kc) = n) data.

(** Sizes of consecutive batches: the size asked for, or what is left of the epoch. *)
Fixpoint sizes_ok (n pos : nat) (sizes : list nat) (idxs : list (list nat)) : Prop :=
  match sizes, idxs with
  | [], [] => True
  | b :: sizes, idx :: idxs => let pos := if n <=? pos then 0 else pos in length idx = min b (n - pos) /\ sizes_ok n (pos + length idx) sizes idxs
  | _, _ => False
  end.

(** A complete pass: every batch has [b] rows, no row comes twice, and only the [n mod b] rows that
    do not fill a batch are left out. *)
Definition full_pass {K A} (data : list (K * list A)) (n : nat) (shuffle : bool) (b : nat) (batches : list (list (K * list A))) : Prop :=
  exists idxs, Forall2 (picks data) idxs batches /\ Forall (fun idx => length idx = b) idxs /\ length batches = n / b /\
    exists rest, epoch n shuffle (concat idxs ++ rest) /\ length rest = n mod b.
