(** Cases that meet the conditions of C129. *)
From Coq Require Import Reals List Arith Lia Lra.
From Verif Require Import LM_Model LM_Spec LM_Proofs LM_Final.
Import ListNotations.
Open Scope R_scope.

(** Two environments, three steps, a unit with and one without layer normalisation. *)
Definition with_norm : params :=
  Params 1 [[0; 0; 0; 1]] [[1; 0; 1; 0]] [0; 1; 0; 0]
    (Some (Norm [1; 1; 1; 1] [0; 0; 0; 0] [1; 1; 1; 1] [0; 0; 0; 0] [1] [0])).
Example with_norm_shaped : shaped with_norm /\ features_fit (fun o : R => [o]) with_norm.
Proof. split; [unfold shaped; cbn; repeat split; repeat constructor|]. intros o. reflexivity. Qed.
Definition demo_obs : list R := [1; 2; 3; 4; 5; 6].
Definition demo_dones : list bool := [true; false; false; false; true; false].
Example demo_runs : exists out new, forward (fun o => [o]) with_norm 2 3 demo_obs demo_dones (initial_state with_norm 2) = Some (out, new).
Proof.
  destruct (proj2 (forward_some (fun o : R => [o]) with_norm 2 3 demo_obs demo_dones (initial_state with_norm 2))) as ((o & n) & H); [|eauto].
  repeat split; auto. repeat constructor.
Qed.
(** The second environment, whose second episode starts in its second step. *)
Example demo_given : given 3 1 demo_obs demo_dones (initial_state with_norm 2) (fun t => nth (3 + t) demo_obs 0) (fun t => nth (3 + t) demo_dones false) [0; 0] /\
  (fun t => nth (3 + t) demo_dones false) 1%nat = true.
Proof.
  split; [|reflexivity]. split; [|reflexivity]. intros t Ht. destruct t as [|[|[|t]]]; [split; reflexivity..|lia].
Qed.
(** The same episode at the start of a run with one environment. *)
Example demo_alone : given 2 0 [5; 6] [true; false] [[7; 8]] (fun t => nth t [5; 6] 0) (fun t => nth t [true; false] false) [7; 8] /\
  (forall k, (k <= 1)%nat -> nth (3 + (1 + k)) demo_obs 0 = nth (0 + k) [5; 6] 0 /\ nth (3 + (1 + k)) demo_dones false = nth (0 + k) [true; false] false).
Proof.
  split.
  - split; [|reflexivity]. intros t Ht. destruct t as [|[|t]]; [split; reflexivity..|lia].
  - intros k Hk. destruct k as [|[|k]]; [split; reflexivity..|lia].
Qed.
(** Acting in steps: three calls with two observations each. *)
Example demo_acts : exists hss final,
  acting (fun o => [o]) small 2 [[1; 4]; [2; 5]; [3; 6]] [[true; false]; [false; true]; [false; false]] (initial_state small 2) = Some (hss, final) /\
  seq_to_batch 0 2 [[1; 4]; [2; 5]; [3; 6]] = demo_obs /\ seq_to_batch false 2 [[true; false]; [false; true]; [false; false]] = demo_dones.
Proof.
  do 2 eexists. split; [|split; reflexivity]. lazy -[Rplus Rmult Rminus Rinv Rdiv sigmoid tanh IZR]. reflexivity.
Qed.
