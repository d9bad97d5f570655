(** Concrete data sets. *)
From Coq Require Import String List Arith Lia Bool Permutation.
From Verif Require Import Base Opt_Model Data_Model Data_Spec Data_Proofs Data_Iter.
Import ListNotations.
Open Scope nat_scope.

Definition dt_rev (c n : nat) : list nat := if Nat.even c then rev (seq 0 n) else seq 0 n.
Lemma dt_rev_perm c n : Permutation (seq 0 n) (dt_rev c n).
Proof. unfold dt_rev. destruct (Nat.even c); auto. apply Permutation_rev. Qed.
Definition dt_data : list (string * list nat) := [("obs"%string, [10; 11; 12; 13; 14]); ("actions"%string, [20; 21; 22; 23; 24])].
Lemma dt_table : table 5 dt_data.
Proof. split; [discriminate|]. repeat constructor. Qed.
(** Two batches of two, one of the single row that is left, then a new epoch. *)
Example dt_batches : (let* st := dataset_new dt_rev dt_data true 0 in let* r := next_batches dt_rev st [2; 2; 2; 2] in Some (snd r)) =
  Some [[("obs"%string, [14; 13]); ("actions"%string, [24; 23])]; [("obs"%string, [12; 11]); ("actions"%string, [22; 21])];
        [("obs"%string, [10]); ("actions"%string, [20])]; [("obs"%string, [14; 13]); ("actions"%string, [24; 23])]].
Proof. reflexivity. Qed.
Example dt_pass : (let* st := dataset_new dt_rev dt_data false 0 in let* r := passes dt_rev st 9 [2; 4] in Some (snd r)) =
  Some [([[("obs"%string, [10; 11]); ("actions"%string, [20; 21])]; [("obs"%string, [12; 13]); ("actions"%string, [22; 23])]], true);
        ([[("obs"%string, [10; 11; 12; 13]); ("actions"%string, [20; 21; 22; 23])]], true)].
Proof. reflexivity. Qed.
Example dt_iter : iterbatches dt_rev [[10; 11; 12; 13; 14]; [20; 21; 22; 23; 24]] (BatchSize 2) true true =
  Some [[[14; 13]; [24; 23]]; [[12; 11]; [22; 21]]; [[10]; [20]]].
Proof. reflexivity. Qed.
Example dt_iter_num : iterbatches dt_rev [[10; 11; 12; 13; 14]] (NumBatches 2) false true = Some [[[10; 11; 12]]; [[13; 14]]].
Proof. reflexivity. Qed.
Example dt_subset : (let* st := dataset_new dt_rev dt_data true 0 in let* r := subset dt_rev st 3 true in Some (d_map r)) =
  Some [("obs"%string, [14; 13; 12]); ("actions"%string, [24; 23; 22])].
Proof. reflexivity. Qed.

(** A generator dropped after one batch leaves the position behind: the next complete pass over the
    same data set delivers one batch instead of two, and never the rows 10 and 11. *)
Lemma dt_abandoned : exists (st st1 st2 : dset) (o1 o2 : list (list (string * list nat))),
  dataset_new dt_rev dt_data false 0 = Some st /\ iterate_once dt_rev st 2 1 = Some (st1, o1, false) /\ iterate_once dt_rev st1 2 5 = Some (st2, o2, true) /\
  o2 = [[("obs"%string, [12; 13]); ("actions"%string, [22; 23])]] /\ ~ full_pass dt_data 5 false 2 o2.
Proof.
  eexists _, _, _, _, _. split; [reflexivity|]. split; [reflexivity|]. split; [reflexivity|]. split; [reflexivity|]. intros (idxs & _ & _ & L & _). discriminate.
Qed.
