(** C39: mini-batches go through the data row by row, each row once per epoch. *)
From Coq Require Import String List Arith Bool Permutation.
From Verif Require Import Base Opt_Model Data_Model Data_Spec Data_Proofs Data_Iter Data_Demo.
Import ListNotations.
Open Scope nat_scope.

(** Any sequence of next_batch calls on a new data set: batch [i] consists of the same rows in all
    columns, the rows of the batches follow whole epochs (in the given order when not shuffled), and
    a batch is shorter than asked only at the end of an epoch. *)
Theorem C39_epochs : forall {K A} (perms : nat -> nat -> list nat) (data : list (K * list A)) n shuffle,
  table n data -> (forall c k, Permutation (seq 0 k) (perms c k)) ->
  forall calls sizes, exists st st' batches idxs,
    dataset_new perms data shuffle calls = Some st /\ next_batches perms st sizes = Some (st', batches) /\
    Forall2 (picks data) idxs batches /\ sizes_ok n 0 sizes idxs /\ epochs n shuffle (concat idxs).
Proof. exact @batches_epochs. Qed.
Print Assumptions C39_epochs.

(** Complete passes of iterate_once give full batches only, without repetition, and leave out only
    what does not fill a batch. *)
Theorem C39_passes : forall {K A} (perms : nat -> nat -> list nat) (data : list (K * list A)) n shuffle,
  table n data -> (forall c k, Permutation (seq 0 k) (perms c k)) ->
  forall take calls sizes, n <= take -> Forall (fun b => 0 < b) sizes ->
  exists st st' rs, dataset_new perms data shuffle calls = Some st /\ passes perms st take sizes = Some (st', rs) /\
    Forall2 (fun b r => snd r = true /\ full_pass data n shuffle b (fst r)) sizes rs.
Proof. exact @passes_full. Qed.
Print Assumptions C39_passes.

(** But an iteration dropped half way makes the next one skip rows. *)
Theorem C39_abandoned_refuted : exists (perms : nat -> nat -> list nat) (data : list (string * list nat)) n b take1 take2 st st1 st2 o1 o2,
  table n data /\ dataset_new perms data false 0 = Some st /\ iterate_once perms st b take1 = Some (st1, o1, false) /\
  iterate_once perms st1 b take2 = Some (st2, o2, true) /\ ~ full_pass data n false b o2.
Proof.
  destruct dt_abandoned as (st & st1 & st2 & o1 & o2 & H1 & H2 & H3 & _ & H4).
  exists dt_rev, dt_data, 5, 2, 1, 5, st, st1, st2, o1, o2. exact (conj dt_table (conj H1 (conj H2 (conj H3 H4)))).
Qed.
Print Assumptions C39_abandoned_refuted.

(** And batch size 0 never ends. *)
Theorem C39_zero_refuted : forall {K A} (perms : nat -> nat -> list nat) (data : list (K * list A)) n shuffle,
  table n data -> (forall c k, Permutation (seq 0 k) (perms c k)) ->
  forall take calls, exists st st' os, dataset_new perms data shuffle calls = Some st /\ iterate_once perms st 0 take = Some (st', os, false).
Proof. exact @iterate_zero_new. Qed.
Print Assumptions C39_zero_refuted.

(** subset holds the first rows of the current order. *)
Theorem C39_subset : forall {K A} (perms : nat -> nat -> list nat) (data : list (K * list A)) n shuffle,
  table n data -> (forall c k, Permutation (seq 0 k) (perms c k)) ->
  forall calls m shuffle2, exists st st2 s idx, dataset_new perms data shuffle calls = Some st /\ subset perms st m shuffle2 = Some st2 /\
    picks data idx (d_map st2) /\ epoch n shuffle s /\ Permutation (firstn m s) idx /\ (shuffle2 = false -> idx = firstn m s).
Proof. exact @subset_new. Qed.
Print Assumptions C39_subset.

(** iterbatches with a batch size: all rows once, all batches but the last of that size. *)
Theorem C39_iterbatches : forall {A} (perms : nat -> nat -> list nat) (arrays : list (list A)) n shuffle,
  arrays <> [] -> Forall (fun a => length a = n) arrays -> (forall c k, Permutation (seq 0 k) (perms c k)) ->
  forall b, 0 < b -> 0 < n -> exists bs idxs, iterbatches perms arrays (BatchSize b) shuffle true = Some bs /\
    Forall2 (picks_arrays arrays) idxs bs /\ epoch n shuffle (concat idxs) /\
    exists full rest, idxs = full ++ [rest] /\ Forall (fun p => length p = b) full /\ 0 < length rest <= b.
Proof. exact @iter_size. Qed.
Print Assumptions C39_iterbatches.

(** Without the final partial batch: full batches only, fewer than [b] rows dropped. *)
Theorem C39_iterbatches_full : forall {A} (perms : nat -> nat -> list nat) (arrays : list (list A)) n shuffle,
  arrays <> [] -> Forall (fun a => length a = n) arrays -> (forall c k, Permutation (seq 0 k) (perms c k)) ->
  forall b, 0 < b -> 0 < n -> exists bs idxs rest, iterbatches perms arrays (BatchSize b) shuffle false = Some bs /\
    Forall2 (picks_arrays arrays) idxs bs /\ Forall (fun p => length p = b) idxs /\ epoch n shuffle (concat idxs ++ rest) /\ length rest < b.
Proof. exact @iter_full. Qed.
Print Assumptions C39_iterbatches_full.

(** With a number of batches: that many, of sizes differing by at most one, all rows once. *)
Theorem C39_iterbatches_num : forall {A} (perms : nat -> nat -> list nat) (arrays : list (list A)) n shuffle,
  arrays <> [] -> Forall (fun a => length a = n) arrays -> (forall c k, Permutation (seq 0 k) (perms c k)) ->
  forall k, 0 < k -> exists bs idxs, iterbatches perms arrays (NumBatches k) shuffle true = Some bs /\
    Forall2 (picks_arrays arrays) idxs bs /\ epoch n shuffle (concat idxs) /\ length bs = k /\
    Forall (fun p => length p = n / k \/ length p = n / k + 1) idxs.
Proof. exact @iter_num. Qed.
Print Assumptions C39_iterbatches_num.

(** With a number of batches and without the final partial one, nothing is delivered at all. *)
Theorem C39_iterbatches_num_refuted : forall {A} (perms : nat -> nat -> list nat) (arrays : list (list A)) n shuffle,
  arrays <> [] -> Forall (fun a => length a = n) arrays -> (forall c k, Permutation (seq 0 k) (perms c k)) ->
  forall k, 0 < k -> iterbatches perms arrays (NumBatches k) shuffle false = Some [].
Proof. exact @iter_num_nothing. Qed.
Print Assumptions C39_iterbatches_num_refuted.
