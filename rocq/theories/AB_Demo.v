(** Small instances. *)
From Coq Require Import List Arith ZArith QArith Bool Lia.
From Verif Require Import AB_Model AB_Spec AB_Proofs.
Import ListNotations.
Open Scope nat_scope.
(** Three rollouts of two environments in two places. *)
Example demo_get : match puts (init 2) [[1; 2]; [3; 4]; [5; 6]] with Some b => get b [0; 1] | None => None end = Some [5; 4]. Proof. reflexivity. Qed.
Example demo_window : lastn 2 [[1; 2]; [3; 4]; [5; 6]] = [[3; 4]; [5; 6]]. Proof. reflexivity. Qed.
Example demo_reads : exists b out, puts (init 2) [[1; 2]; [3; 4]; [5; 6]] = Some b /\ get b [0; 1] = Some out /\ Forall2 (fun e x => exists ro, In ro (lastn 2 [[1; 2]; [3; 4]; [5; 6]]) /\ nth_error ro e = Some x) (seq 0 2) out.
Proof. apply buffer_reads; try (repeat constructor; fail); try discriminate; try lia. Qed.
Definition two : list (list (list (Q * bool))) := [[[(1, false); (2, true)]; [(5, false); (6, false)]]; [[(3, false); (4, false)]; [(7, true); (8, true)]]]%Q.
Example demo_feed : lens (feeds 40 2 two) = [2; 3; 1] /\ partial (feeds 40 2 two) = [[3; 4]; []]%Q. Proof. split; reflexivity. Qed.
Example demo_logged : exists log, logged 40 2 two (feeds 40 2 two) log. Proof. apply logged_all. repeat constructor. Qed.
(** With two environments the order in the window depends on how the steps are cut into rollouts. *)
Definition cut_a : list (list (list (Q * bool))) := [[[(1, false); (1, true)]; [(5, true); (5, false)]]]%Q.
Definition cut_b : list (list (list (Q * bool))) := [[[(1, false)]; [(5, true)]]; [[(1, true)]; [(5, false)]]]%Q.
Example demo_cut : (forall i, i < 2 -> stream_of i cut_a = stream_of i cut_b) /\ lens (feeds 40 2 cut_a) = [2; 1] /\ lens (feeds 40 2 cut_b) = [1; 2].
Proof. split; [|split; reflexivity]. intros [|[|i]] H; try reflexivity. lia. Qed.
Example demo_byte : as_byte (9 # 10) = 0%Q. Proof. reflexivity. Qed.
