(** Properties C08-C10: the PESA replay memory. *)
From Coq Require Import List Arith ZArith QArith Bool Lia Lqa Permutation Sorted.
From Verif Require Import Base ER_Model ER_Spec ER_Proofs.
Import ListNotations.
Open Scope nat_scope.

(** C08: no duplicates, bounded, nothing invented; for every history of every
    kind of call ([pw x] is [x ** alpha], any function). *)
Theorem C08_no_duplicates_bounded :
  forall X M (eqX : X -> X -> bool) (eqM : M -> M -> bool) (pw : Q -> Q),
  equivalence eqX -> equivalence eqM ->
  forall s h m, 1 <= s -> ofold (exec_op eqX eqM pw) (new_memory s) h = Some m ->
  no_equal_pair eqX eqM (store m) /\ length (store m) <= s /\
  (forall a, In a (store m) -> In a (flat_map added h)) /\
  (forall k, memory_can_sample m k = true <-> k <= length (store m)) /\
  (memory_is_full m = true <-> length (store m) = s).
Proof. exact @er_invariant. Qed.
Print Assumptions C08_no_duplicates_bounded.

(** C08: adding and greedy sampling never raise. *)
Theorem C08_calls_total :
  forall X M (eqX : X -> X -> bool) (eqM : M -> M -> bool) (pw : Q -> Q),
  equivalence eqX -> equivalence eqM ->
  forall s h m c, 1 <= s -> ofold (exec_op eqX eqM pw) (new_memory s) h = Some m ->
  match c with OAdd _ _ _ | OAddBatch _ _ _ | OGreedy _ => True | _ => False end ->
  exec_op eqX eqM pw m c <> None.
Proof. exact @er_add_total. Qed.
Print Assumptions C08_calls_total.

(** C08: while all added samples are equal to one of at most [s] samples [d],
    nothing added is lost, however often the memory was sampled in between. *)
Theorem C08_nothing_lost_early :
  forall X M (eqX : X -> X -> bool) (eqM : M -> M -> bool) (pw : Q -> Q),
  equivalence eqX -> equivalence eqM ->
  forall s h m d, 1 <= s -> ofold (exec_op eqX eqM pw) (new_memory s) h = Some m ->
  existsb is_remove h = false -> length d <= s ->
  (forall a, In a (flat_map added h) -> occurs eqX eqM a d) ->
  forall a, In a (flat_map added h) -> occurs eqX eqM a (store m).
Proof. exact @er_keeps_all. Qed.
Print Assumptions C08_nothing_lost_early.

(** C08: [remove_duplicates] leaves one sample per attribute vector. *)
Theorem C08_remove_duplicates :
  forall X M (eqX : X -> X -> bool), equivalence eqX ->
  forall m m' : memory X M, remove_duplicates eqX m = Some m' ->
  (forall a, In a (store m') -> In a (store m)) /\
  ForallOrdPairs (fun a b => eqX (sx a) (sx b) = false) (store m') /\
  (forall a, In a (store m) -> exists b, In b (store m') /\ eqX (sx a) (sx b) = true).
Proof. exact (fun X M eqX H => @remove_dup_spec X M eqX (fun _ _ => true) H). Qed.
Print Assumptions C08_remove_duplicates.

(** C08: what a batch call adds, row by row. *)
Theorem C08_batch_rows : forall X M (xs : list X) (os : list Q) (ms : list M), ms <> [] -> forall i,
  nth_error (zip_batch xs os (Some ms)) i =
  match nth_error xs i, nth_error os i, nth_error ms i with
  | Some x, Some o, Some m => Some (x, o, Some m)
  | _, _, _ => None
  end.
Proof. exact @zip_batch_nth. Qed.
Print Assumptions C08_batch_rows.
Theorem C08_batch_rows_no_method : forall X M (xs : list X) (os : list Q) i,
  nth_error (zip_batch (M:=M) xs os None) i =
  match nth_error xs i, nth_error os i with
  | Some x, Some o => Some (x, o, None)
  | _, _ => None
  end.
Proof. exact @zip_batch_nth_none. Qed.
Print Assumptions C08_batch_rows_no_method.

Lemma nat_eqb_equivalence : equivalence Nat.eqb.
Proof.
  split; [exact Nat.eqb_refl|]. split; intros *; rewrite !Nat.eqb_eq; congruence.
Qed.
Definition demo_hist : list (@op nat nat) :=
  [OAdd 1 (3#1) (Some 7); OAddBatch [2;1;3] [1%Q;3%Q;5%Q] (Some [7;7;8]); OUniform [0;2]; OGreedy 2;
   OAdd 1 (6#2) (Some 7); OPrior [1]].
Example C08_example :
  existsb is_remove demo_hist = false /\
  match ofold (exec_op Nat.eqb Nat.eqb (fun x => x)) (new_memory 3) demo_hist with
  | Some m => store m = [(3, 5%Q, Some 8); (1, 3#1, Some 7); (2, 1%Q, Some 7)]
  | None => False end.
Proof. split; reflexivity. Qed.

(** C09, first half: greedy sampling returns the best ones in order. *)
Theorem C09_greedy_top :
  forall X M (m : memory X M) k,
  let r := snd (sample_greedy m k) in
  length r = Nat.min k (length (store m)) /\
  StronglySorted (fun a b => (obj b <= obj a)%Q) r /\
  (exists rest, Permutation (r ++ rest) (store m) /\
     forall a b, In a r -> In b rest -> (obj b <= obj a)%Q) /\
  Permutation (store (fst (sample_greedy m k))) (store m).
Proof. exact @greedy_spec. Qed.
Print Assumptions C09_greedy_top.

(** C09, second half for histories that never sort the memory (no greedy or
    prior sampling, no removal): the memory is a FIFO window of the accepted
    samples, so the oldest is evicted. *)
Theorem C09_fifo_without_sorting :
  forall X M (eqX : X -> X -> bool) (eqM : M -> M -> bool) (pw : Q -> Q),
  forall s h m, 1 <= s -> ofold (exec_op eqX eqM pw) (new_memory s) h = Some m ->
  existsb reorders h = false ->
  let acc := fold_left (accept eqX eqM s) (flat_map added h) [] in
  Permutation (store m) (window s acc) /\
  (forall t, length acc - Nat.min (length acc) s <= t < length acc ->
     nth_error (store m) (t mod s) = nth_error acc t).
Proof. exact @er_fifo. Qed.
Print Assumptions C09_fifo_without_sorting.

(** C09, second half in general is false: after one greedy call the newest and
    best sample is evicted and the oldest, worst one stays. *)
Theorem C09_evicts_oldest_refuted :
  exists (h : list (@op nat nat)) m,
  ofold (exec_op Nat.eqb Nat.eqb (fun x => x)) (new_memory 2) h = Some m /\
  flat_map added h = [(1, 1%Q, None); (2, 9%Q, None); (3, 2%Q, None)] /\
  store m = [(3, 2%Q, None); (1, 1%Q, None)].
Proof. exact (ex_intro _ [OAdd 1 1%Q None; OAdd 2 9%Q None; OGreedy 1; OAdd 3 2%Q None]
                (ex_intro _ _ (conj eq_refl (conj eq_refl eq_refl)))). Qed.
Print Assumptions C09_evicts_oldest_refuted.

Example C09_example :
  match ofold (exec_op Nat.eqb Nat.eqb (fun x => x)) (new_memory 2)
     [OAdd 1 1%Q (@None nat); OAdd 2 9%Q None; OAdd 2 9%Q None; OUniform [1]; OAdd 3 2%Q None] with
  | Some m => store m = [(3, 2%Q, None); (2, 9%Q, None)] /\ snd (sample_greedy m 1) = [(2, 9%Q, None)]
  | None => False end.
Proof. split; reflexivity. Qed.

(** C10 *)
Theorem C10_priorities :
  forall X M (pw : Q -> Q), (forall x, (0 < x)%Q -> (0 < pw x)%Q) ->
  (forall x y, (0 < x)%Q -> (x <= y)%Q -> (pw x <= pw y)%Q) ->
  forall m : memory X M, store m <> [] ->
  exists m' ps, calc_priorities pw m = Some (m', ps) /\
    Permutation (store m') (store m) /\
    StronglySorted (fun a b => (obj b <= obj a)%Q) (store m') /\
    length ps = length (store m') /\
    (forall p, In p ps -> (0 < p)%Q) /\
    (qsum ps == 1)%Q /\
    (forall i j p q, i <= j -> nth_error ps i = Some p -> nth_error ps j = Some q -> (q <= p)%Q).
Proof. exact @priorities_spec. Qed.
Print Assumptions C10_priorities.

Example C10_example :
  match calc_priorities (fun x => x) (mkMem [(1, 1%Q, @None nat); (2, 9%Q, None); (3, 4%Q, None)] 5 3) with
  | Some (m', ps) => map sx (store m') = [2;3;1] /\ Forall2 Qeq ps [6#11; 3#11; 2#11]
  | None => False end.
Proof. split; [reflexivity|]. repeat constructor. Qed.
