(** Examples for the encoding of observations. *)
From Coq Require Import QArith ZArith List Bool Lia Lqa.
From Verif Require Import OI_Model OI_Spec OI_Proofs.
Import ListNotations.
Open Scope list_scope.
Open Scope nat_scope.

Example discrete1 : observation_input (Discrete 3) None true [One 2; One 0] = Returns [[Num 0; Num 0; Num 1]; [Num 1; Num 0; Num 0]].
Proof. reflexivity. Qed.
Example outside1 : ~ contains (Discrete 3) (One 3) /\ encodes_to (Discrete 3) false (One 3) [Num 0; Num 0; Num 0].
Proof. split; [simpl; lia|reflexivity]. Qed.
Example multi1 : encodes_to (MultiDiscrete [2; 3]) false (Ints [1%Z; 2%Z]) [Num 0; Num 1; Num 0; Num 0; Num 1] /\ contains (MultiDiscrete [2; 3]) (Ints [1%Z; 2%Z]).
Proof. split; [reflexivity|repeat constructor; simpl; lia]. Qed.
Definition image : space := BoxF [(Fin 0, Fin 255); (Fin (-1), Fin 1)].
Example scaled1 : exists v, encodes_to image true (Floats [51%Q; 0%Q]) v /\ Forall2 same_num v [Num (1 # 5); Num (1 # 2)] /\ Forall finite [(Fin 0, Fin 255); (Fin (-1), Fin 1)] /\ good_bounds image /\ contains image (Floats [51%Q; 0%Q]).
Proof. eexists. split; [reflexivity|]. split; [repeat constructor|]. split; [repeat constructor|]. split; [repeat constructor; simpl; lra|]. repeat constructor; simpl; lra. Qed.
Example unscaled1 : policy_input Mlp image None (map Floats [[51%Q; 0%Q]]) = Returns [[Num 51; Num 0]].
Proof. reflexivity. Qed.
(** One component that can only be 2, another from 0 to 1. *)
Lemma mixed_demo : contains (BoxF [(Fin 2, Fin 2); (Fin 0, Fin 1)]) (Floats [2%Q; 1%Q]) /\ encodes_to (BoxF [(Fin 2, Fin 2); (Fin 0, Fin 1)]) true (Floats [2%Q; 1%Q]) [NaN; Num (place 0 1 1)].
Proof. split; [repeat constructor; simpl; lra|reflexivity]. Qed.
(** All values of a byte with sign. *)
Lemma byte_demo : encodes_to (BoxI true 8 [((-128)%Z, 127%Z)]) true (Ints [127%Z]) [Num (inject_Z 255 / inject_Z (-1))].
Proof. reflexivity. Qed.
Example byte_range : (2 ^ (8 - 1) <= 127 - -128 < 2 ^ 8)%Z /\ (-128 < 127 <= 127)%Z.
Proof. lia. Qed.
Example unsigned1 : exists v, encodes_to (BoxI false 8 [(0%Z, 255%Z)]) true (Ints [51%Z]) v /\ Forall2 same_num v [Num (1 # 5)] /\ good_bounds (BoxI false 8 [(0%Z, 255%Z)]).
Proof. eexists. split; [reflexivity|]. split; [repeat constructor|]. split; [lia|]. repeat constructor; simpl; lia. Qed.
Example infinite1 : Exists (fun p => ~ finite p) [(Fin 0, Fin 255); (Inf, Inf)] /\ encodes_to (BoxF [(Fin 0, Fin 255); (Inf, Inf)]) true (Floats [51%Q; 7%Q]) [Num 51; Num 7].
Proof. split; [apply Exists_cons_tl, Exists_cons_hd; auto|reflexivity]. Qed.
Example flat1 : Forall pinned [(Fin 2, Fin 2)] /\ encodes_to (BoxF [(Fin 2, Fin 2)]) true (Floats [2%Q]) [Num 2].
Proof. split; [repeat constructor|reflexivity]. Qed.
Example binary1 : encodes_to (MultiBinary 2) true (Ints [1%Z; 0%Z]) [Num 1; Num 0].
Proof. reflexivity. Qed.
Example raises1 : observation_input (Discrete 3) (Some 4) true [One 2; One 0] = Raises /\ observation_input Other None false [] = Raises.
Proof. split; reflexivity. Qed.
