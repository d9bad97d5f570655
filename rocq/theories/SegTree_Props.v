(** Properties C01-C03: the segment trees behind prioritized replay. *)
From Coq Require Import List Arith ZArith QArith Bool Lia Lqa.
From Verif Require Import Base SegTree_Model SegTree_Spec SegTree_Proofs SegTree_Facts.
Import ListNotations.
Open Scope nat_scope.

(** C01, for any associative operation.  [fuel >= c] is a recursion budget that is
    always enough (Python's is 1000 frames; log2 c + 1 are used). *)
Theorem C01_tree_refines_array :
  forall V (op : V -> V -> V) (e : V),
  (forall a b c, op a (op b c) = op (op a b) c) -> op e e = e ->
  forall c t0 h fuel,
  new_tree e c = Some t0 -> c <= fuel -> valid_history c h ->
  exists t, run_writes op fuel t0 h = Done t /\
    let arr := array_after (fun _ => e) (concat h) in
    (forall i, i < c -> getitem t i = Done (arr i)) /\
    (forall i, c <= i -> getitem t i = Raise) /\
    (forall a b, a < b <= c ->
       reduce op fuel t (Z.of_nat a) (Some (Z.of_nat b)) =
       Done (right_reduce op arr a (b - a - 1))) /\
    (forall a m, 1 <= m -> a < c - m ->
       reduce op fuel t (Z.of_nat a) (Some (- Z.of_nat m)%Z) =
       Done (right_reduce op arr a (c - m - a - 1))) /\
    (forall a, a < c -> 
       reduce op fuel t (Z.of_nat a) None = Done (right_reduce op arr a (c - a - 1))).
Proof. exact @tree_refines_array. Qed.
Print Assumptions C01_tree_refines_array.

(** The operation of SumSegmentTree and MinSegmentTree qualify. *)
Theorem C01_sum_qualifies :
  (forall a b c, Qplus a (Qplus b c) = Qplus (Qplus a b) c) /\ Qplus 0 0 = 0%Q.
Proof. exact (conj Qplus_assoc_leibniz eq_refl). Qed.
Print Assumptions C01_sum_qualifies.

Theorem C01_min_qualifies :
  (forall a b c, ext_min a (ext_min b c) = ext_min (ext_min a b) c) /\ ext_min PInf PInf = PInf.
Proof. exact (conj ext_min_assoc eq_refl). Qed.
Print Assumptions C01_min_qualifies.

(** The reduction of a sum tree is the difference of prefix sums, that of a min
    tree is the minimum of the range. *)
Theorem C01_sum_reduce_meaning : forall (arr : nat -> Q) a b, a < b ->
  (right_reduce Qplus arr a (b - a - 1) == prefix_sum arr b - prefix_sum arr a)%Q.
Proof. exact sum_reduce_prefix. Qed.
Print Assumptions C01_sum_reduce_meaning.

Theorem C01_min_reduce_meaning : forall (arr : nat -> ext) n a,
  (exists i, a <= i <= a + n /\ right_reduce ext_min arr a n = arr i) /\
  (forall i, a <= i <= a + n -> ext_le (right_reduce ext_min arr a n) (arr i)).
Proof. exact min_reduce_spec. Qed.
Print Assumptions C01_min_reduce_meaning.

(** A history with an unsorted, repeating index array on a tree of capacity 8. *)
Definition demo_history : list (list (nat * Q)) :=
  [ [(3, 1%Q)]; [(6, 2%Q); (0, 5%Q); (6, 4%Q); (3, 7%Q)]; [(5, 1#2)] ].
Example C01_example :
  new_sum_tree 8 = Some (mkTree 8 (fun _ => 0%Q)) /\ valid_history 8 demo_history /\
  match run_writes Qplus 8 (mkTree 8 (fun _ => 0%Q)) demo_history with
  | Done t => match reduce Qplus 8 t 1 (Some 7%Z) with
              | Done s => Qeq_bool s (23#2) = true
              | _ => False end
  | _ => False end.
Proof.
  split; [reflexivity|]. split; [|vm_compute; reflexivity].
  intros w Hw. simpl in Hw.
  destruct Hw as [<-|[<-|[<-|[]]]]; (split; [discriminate|]);
    intros iv Hiv; simpl in Hiv; repeat destruct Hiv as [<-|Hiv]; simpl; try lia; destruct Hiv.
Qed.

(** C02 *)
Theorem C02_prefix_search : forall c t0 h fuel t ps,
  new_sum_tree c = Some t0 -> 2 <= c -> c <= fuel -> valid_history c h ->
  (forall w, In w (concat h) -> (0 <= snd w)%Q) ->
  run_writes Qplus fuel t0 h = Done t ->
  let arr := array_after (fun _ => 0%Q) (concat h) in
  ps <> [] ->
  (forall p, In p ps -> (0 <= p)%Q /\ (p <= prefix_sum arr c + (1 # 100000))%Q) ->
  exists is, find_prefixsum_idx fuel t ps = Done is /\
    Forall2 (fun p i =>
      i < c /\ (prefix_sum arr i <= p)%Q /\
      ((p < prefix_sum arr c)%Q ->
         (p < prefix_sum arr (S i))%Q /\ (0 < arr i)%Q /\
         forall j, j < c -> (prefix_sum arr j <= p)%Q -> (p < prefix_sum arr (S j))%Q -> j = i) /\
      ((prefix_sum arr c <= p)%Q -> i = c - 1)) ps is.
Proof. exact prefix_search. Qed.
Print Assumptions C02_prefix_search.

(** Queries outside [0, total + 1e-5] are rejected by the assertions. *)
Theorem C02_prefix_search_rejects : forall c t0 h fuel t ps p,
  new_sum_tree c = Some t0 -> c <= fuel -> valid_history c h ->
  run_writes Qplus fuel t0 h = Done t ->
  let arr := array_after (fun _ => 0%Q) (concat h) in
  In p ps -> ((p < 0)%Q \/ (prefix_sum arr c + (1 # 100000) < p)%Q) ->
  find_prefixsum_idx fuel t ps = Raise.
Proof. exact prefix_search_assert. Qed.
Print Assumptions C02_prefix_search_rejects.

Example C02_example :
  match run_writes Qplus 8 (mkTree 8 (fun _ => 0%Q)) demo_history with
  | Done t => find_prefixsum_idx 8 t [0%Q; 5%Q; 12%Q; 13%Q; 33#2] = Done [0; 3; 5; 6; 7]
  | _ => False end.
Proof. vm_compute. reflexivity. Qed.

(** C03: on a non-empty range every query returns, with the sum or the minimum
    of the range, however the end is written. *)
Theorem C03_sum_range : forall c t0 h fuel t a stop b,
  new_sum_tree c = Some t0 -> c <= fuel -> valid_history c h -> run_writes Qplus fuel t0 h = Done t ->
  range_end c stop = Z.of_nat b -> a < b <= c ->
  exists v, reduce Qplus fuel t (Z.of_nat a) stop = Done v /\
    let arr := array_after (fun _ => 0%Q) (concat h) in (v == prefix_sum arr b - prefix_sum arr a)%Q.
Proof. exact sum_range. Qed.
Print Assumptions C03_sum_range.

Theorem C03_min_range : forall c t0 h fuel t a stop b,
  new_min_tree c = Some t0 -> c <= fuel -> valid_history c h -> run_writes ext_min fuel t0 h = Done t ->
  range_end c stop = Z.of_nat b -> a < b <= c ->
  exists v, reduce ext_min fuel t (Z.of_nat a) stop = Done v /\
    let arr := array_after (fun _ => PInf) (concat h) in
    (exists i, a <= i < b /\ v = arr i) /\ (forall i, a <= i < b -> ext_le v (arr i)).
Proof. exact min_range. Qed.
Print Assumptions C03_min_range.

Example C03_range_example : range_end 8 (Some (-2)%Z) = 6%Z /\
  match run_writes Qplus 8 (mkTree 8 (fun _ => 0%Q)) demo_history with
  | Done t => match reduce Qplus 8 t 3 (Some (-2)%Z) with
              | Done s => Qeq_bool s (15#2) = true
              | _ => False end
  | _ => False end.
Proof. vm_compute. split; reflexivity. Qed.

(** C03 is false: an empty range [sum(i, i)] never returns, whatever the
    recursion budget, and no query on a capacity-1 tree succeeds. *)
Theorem C03_empty_range_refuted : forall V (op : V -> V -> V) (t : tree V) fuel i,
  0 < cap t -> reduce op fuel t (Z.of_nat i) (Some (Z.of_nat i)) = Fuel.
Proof. exact @reduce_empty. Qed.
Print Assumptions C03_empty_range_refuted.

Theorem C03_capacity_one_search_refuted : forall fuel t p ps,
  cap t = 1 -> find_prefixsum_idx fuel t (p :: ps) <> Fuel ->
  find_prefixsum_idx fuel t (p :: ps) = Raise.
Proof. exact find_prefixsum_cap1. Qed.
Print Assumptions C03_capacity_one_search_refuted.

Example C03_example : find_prefixsum_idx 5 (mkTree 1 (fun _ => 1%Q)) [1#2] = Raise
  /\ reduce Qplus 1000 (mkTree 4 (fun _ => 1%Q)) 0 (Some 0%Z) = Fuel.
Proof. vm_compute. split; reflexivity. Qed.
