(** Cases that meet the hypotheses: a generator that counts its draws. *)
From Coq Require Import List Arith Reals Lra Lia.
From Verif Require Import FF_Model FF_Spec FF_Proofs.
Import ListNotations.
Open Scope R_scope.

Definition d_seed (n : nat) : nat := n.
Definition d_choice (g : nat) : nat * nat := (Nat.modulo g 3, S g).
Definition d_uniform (g : nat) : R * nat := (if Nat.even g then 1 / 4 else 1 / 2, S g).
Example demo_draws : numpy_draws d_choice d_uniform.
Proof.
  split; intros g; cbn [fst d_choice d_uniform].
  - pose proof (Nat.mod_upper_bound g 3). lia.
  - unfold d_uniform. cbn [fst]. destruct (Nat.even g); lra.
Qed.
Example demo_edge : fst (fit nat d_seed d_choice d_uniform [1; 1; -9] 17%nat) = Some (-9).
Proof.
  rewrite fit_outside; [|discriminate|simpl; lia|].
  - simpl. rewrite twist_eq. f_equal. lra.
  - exact (ones_neighbours 2 (-9)).
Qed.
Example demo_search : (S 1 < 5)%nat /\ length (search nat d_seed d_choice d_uniform d_uniform (fun h => [hd 0 h]) 5 [] 17%nat) = 5%nat.
Proof. split; [lia|reflexivity]. Qed.
