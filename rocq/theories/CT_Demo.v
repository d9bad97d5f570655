(** Concrete cases that meet the hypotheses of the theorems about texts for consoles. *)
From Coq Require Import QArith Qabs Ascii String List Arith Bool Lia.
From Verif Require Import CT_Model CT_Spec CT_Proofs.
Import ListNotations.
Open Scope list_scope.
Open Scope nat_scope.

Definition f5 (q : Q) : text := of_string "1.50000".
Definition e2 (q : Q) : text := of_string "2.00e+06".
Definition demo_row : list item := [Other (of_string "loss"); Float (3 # 2); Array 0 (Float (2000000 # 1))].
Example demo_fits : demo_row <> [] /\ Forall (fun x => dimensions x = 0 /\ length (rep f5 e2 (inner x)) <= 8) demo_row.
Proof. split; [discriminate|]. repeat constructor. Qed.
Example demo_text : fmt_row f5 e2 8 demo_row false = Returns (of_string "    loss |  1.50000 | 2.00e+06").
Proof. reflexivity. Qed.
Example demo_array : dimensions (Array 1 (Float 0)) <> 0 /\ fmt_row f5 e2 8 (Array 1 (Float 0) :: demo_row) true = Raises.
Proof. split; [discriminate|reflexivity]. Qed.
Example demo_floats : (1 # 10000 <= Qabs (3 # 2) /\ Qabs (3 # 2) <= 10000 # 1)%Q /\ (10000 # 1 < Qabs (2000000 # 1))%Q /\ ~ (2000000 # 1 == 0)%Q.
Proof. repeat split; try discriminate. Qed.
Example demo_color : colorize (of_string "ok") "green" true true = Returns (escape :: of_string "[42;1mok" ++ escape :: of_string "[0m") /\ lookup "pink" colors = None.
Proof. split; reflexivity. Qed.
