(** neorl/rl/baselines/shared/dataset.py.

    A column is a list (the rows of an array), data_map an association list from keys to columns.
    [perms c n] is what the [c]-th call of np.random.shuffle makes of np.arange(n).  Batch sizes
    are natural numbers.  None stands for an exception (an index out of range, a failed assert,
    a zero step). *)
From Coq Require Import List Arith Bool.
From Verif Require Import Base Opt_Model.
Import ListNotations.
Open Scope nat_scope.

Section Data.
Context {K A : Type} (perms : nat -> nat -> list nat).
Definition data_map : Type := list (K * list A).

(** a[inds] for an index array. *)
Definition take_rows (col : list A) (inds : list nat) : option (list A) := traverse (fun _ i => nth_error col i) 0 inds.
Definition take_all (dm : data_map) (inds : list nat) : option data_map :=
  traverse (fun _ kc => let* c := take_rows (snd kc) inds in Some (fst kc, c)) 0 dm.

Record dset : Type := DSet { d_map : data_map; d_shuffle : bool; d_n : nat; d_next : nat; d_calls : nat }.
(** shuffle_dataset, dataset.py:21-29. *)
Definition shuffle_dataset (st : dset) : option dset :=
  let* dm := take_all (d_map st) (perms (d_calls st) (d_n st)) in
  Some (DSet dm (d_shuffle st) (d_n st) (d_next st) (S (d_calls st))).
(** __init__, dataset.py:5-19; an empty dict raises StopIteration. *)
Definition dataset_new (dm : data_map) (shuffle : bool) (calls : nat) : option dset :=
  match dm with
  | [] => None
  | (_, c) :: _ => let st := DSet dm shuffle (length c) 0 calls in if shuffle then shuffle_dataset st else Some st
  end.
(** next_batch, dataset.py:31-50; first the new epoch, lines 38-41. *)
Definition rewind (st : dset) : option dset :=
  if d_n st <=? d_next st
  then let st := DSet (d_map st) (d_shuffle st) (d_n st) 0 (d_calls st) in
       if d_shuffle st then shuffle_dataset st else Some st
  else Some st.
Definition next_batch (st : dset) (batch_size : nat) : option (dset * data_map) :=
  let* st := rewind st in
  let cur_id := d_next st in
  let cur := min batch_size (d_n st - d_next st) in
  Some (DSet (d_map st) (d_shuffle st) (d_n st) (d_next st + cur) (d_calls st),
        map (fun kc => (fst kc, firstn cur (skipn cur_id (snd kc)))) (d_map st)).
(** A sequence of calls. *)
Fixpoint next_batches (st : dset) (sizes : list nat) : option (dset * list data_map) :=
  match sizes with
  | [] => Some (st, [])
  | b :: r => let* '(st1, o) := next_batch st b in let* '(st2, os) := next_batches st1 r in Some (st2, o :: os)
  end.
(** iterate_once, dataset.py:52-64, consumed up to [take] batches; the last component says whether
    the generator ran to its end (then _next_id is reset), otherwise it was abandoned. *)
Fixpoint iterate_loop (st : dset) (batch_size take : nat) : option (dset * list data_map * bool) :=
  if d_next st + batch_size <=? d_n st then
    match take with
    | O => Some (st, [], false)
    | S t => let* '(st1, o) := next_batch st batch_size in
             let* '(st2, os, fin) := iterate_loop st1 batch_size t in Some (st2, o :: os, fin)
    end
  else Some (DSet (d_map st) (d_shuffle st) (d_n st) 0 (d_calls st), [], true).
Definition iterate_once (st : dset) (batch_size take : nat) : option (dset * list data_map * bool) :=
  let* st := if d_shuffle st then shuffle_dataset st else Some st in
  iterate_loop st batch_size take.
(** Several iterations one after the other. *)
Fixpoint passes (st : dset) (take : nat) (bsizes : list nat) : option (dset * list (list data_map * bool)) :=
  match bsizes with
  | [] => Some (st, [])
  | b :: r => let* '(st1, os, fin) := iterate_once st b take in
              let* '(st2, rs) := passes st1 take r in Some (st2, (os, fin) :: rs)
  end.
(** subset, dataset.py:66-77. *)
Definition subset (st : dset) (num_elements : nat) (shuffle : bool) : option dset :=
  dataset_new (map (fun kc => (fst kc, firstn num_elements (snd kc))) (d_map st)) shuffle (d_calls st).

(** np.array_split(inds, sections): by positions, and into [k] parts (the first [n mod k] one
    element longer). *)
Fixpoint split_at (l : list nat) (from : nat) (sections : list nat) : list (list nat) :=
  match sections with
  | [] => [skipn from l]
  | s :: r => firstn (s - from) (skipn from l) :: split_at l s r
  end.
Definition split_parts (l : list nat) (k : nat) : option (list (list nat)) :=
  match k with
  | O => None
  | _ => let q := length l / k in let r := length l mod k in
         Some (map (fun i => firstn (q + if i <? r then 1 else 0) (skipn (i * q + min i r) l)) (seq 0 k))
  end.
(** np.arange(0, n, b)[1:]: b, 2b, ... below n. *)
Definition arange_tail (n b : nat) : list nat := map (fun i => (i + 1) * b) (seq 0 ((n - 1) / b)).

Inductive split_by : Type := NumBatches (k : nat) | BatchSize (b : nat).
(** iterbatches, dataset.py:80-101.  With num_batches given, batch_size is None and no length
    equals it. *)
Definition iterbatches (arrays : list (list A)) (by_ : split_by) (shuffle final : bool) : option (list (list (list A))) :=
  let* a0 := nth_error arrays 0 in
  let n := length a0 in
  if negb (forallb (fun a => length a =? n) (tl arrays)) then None else
  let inds := if shuffle then perms 0 n else seq 0 n in
  let* parts := match by_ with
                | NumBatches k => split_parts inds k
                | BatchSize b => if b =? 0 then None else Some (split_at inds 0 (arange_tail n b))
                end in
  let keep p := final || match by_ with NumBatches _ => false | BatchSize b => length p =? b end in
  traverse (fun _ p => traverse (fun _ a => take_rows a p) 0 arrays) 0 (filter keep parts).
End Data.
