(** Concrete cases for the toy environments. *)
From Coq Require Import List Arith Lia ZArith QArith Bool.
From Verif Require Import BF_Model BF_Spec BF_Proofs.
Import ListNotations.
Open Scope nat_scope.

Definition c3 : bcfg := make 3 None true.
Example demo_step : b_step c3 (Bstate [true; false; true] 0) (One (-2)) = Some (Bstate [true; true; true] 1, (Num 7, Num 7, Num 7), 0%Z, true, true).
Proof. reflexivity. Qed.
Example demo_range : (- Z.of_nat (length [true; false; true]) <= -2 < Z.of_nat (length [true; false; true]))%Z /\ act [true; false; true] (One 3) = None.
Proof. split; [cbn; lia|reflexivity]. Qed.
Example demo_play : play c3 (Bstate [false; false; true] 0) (map One [0; 1; 2]%Z) = Some (2, (-1)%Z, true, true) /\ zeros [false; false; true] = 2.
Proof. split; reflexivity. Qed.
Example demo_lost : play c3 (Bstate [false; false; true] 0) (map One [2; 2; 2; 2]%Z) = Some (3, (-3)%Z, true, false).
Proof. reflexivity. Qed.
Example demo_cont : length [1 # 2; -1; 0]%Q = length [true; false; true] /\ act [true; false; true] (Cont [1 # 2; -1; 0]%Q) = Some [false; false; true].
Proof. split; reflexivity. Qed.
Example demo_reward : length [true; false] = length [false; true] /\ compute_reward (convert c3 [true; false]) (convert c3 [false; true]) = (-1)%Z.
Proof. split; reflexivity. Qed.
Example demo_copy : (forall x, Nat.eqb x x = true) /\ i_play Nat.eqb 3 (fun seen => last seen 5) [5] (i_init 5) [1; 2; 3; 4] = [(1%Z, false); (1%Z, false); (1%Z, true)].
Proof. split; [apply Nat.eqb_refl|reflexivity]. Qed.
Example demo_box : box_matches (5 # 100) (1 # 2) (54 # 100) = true /\ box_matches (5 # 100) (1 # 2) (56 # 100) = false.
Proof. split; reflexivity. Qed.
