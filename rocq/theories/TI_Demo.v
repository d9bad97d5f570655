(** Cases that meet the hypotheses of C121. *)
From Coq Require Import List Arith Bool.
From Verif Require Import TI_Model TI_Spec TI_Proofs.
Import ListNotations.
Open Scope nat_scope.
Definition img (k : nat) : list (list nat) := [[k; k + 1; k + 2]; [k + 3; k + 4; k + 5]].
Example tile5 : tile_images 0 (map img [10; 20; 30; 40; 50]) =
  Some [[10; 11; 12; 20; 21; 22]; [13; 14; 15; 23; 24; 25]; [30; 31; 32; 40; 41; 42]; [33; 34; 35; 43; 44; 45]; [50; 51; 52; 0; 0; 0]; [53; 54; 55; 0; 0; 0]].
Proof. reflexivity. Qed.
Example shaped5 : forall i, In i (map img [10; 20; 30; 40; 50]) -> shaped 2 3 i.
Proof. intros i Hi. cbn in Hi. repeat (destruct Hi as [<-|Hi]; [split; [reflexivity|]; intros r Hr; cbn in Hr; repeat (destruct Hr as [<-|Hr]; [reflexivity|]); contradiction|]). contradiction. Qed.
Example grid5 : new_height 5 = 3 /\ new_width 5 = 2.
Proof. split; reflexivity. Qed.
Example ragged : tile_images 0 [img 10; [[1]]] = None.
Proof. reflexivity. Qed.
