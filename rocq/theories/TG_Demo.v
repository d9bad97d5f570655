(** A counter whose episodes have three steps, gathered in segments of two. *)
From Coq Require Import List Arith QArith Bool Lia.
From Verif Require Import TG_Model TG_Spec TG_Proofs.
Import ListNotations.
Open Scope nat_scope.

Definition ereset (s : nat) := 0.
Definition enext (s a : nat) := s + a.
Definition rew (s a : nat) : Q := inject_Z (Z.of_nat (s + 1)).
Definition done_of (s a : nat) := 3 <=? s + a.
Definition info_r (s a : nat) : option Q := None.
(** The policy answers 1; its value is the number of the call. *)
Definition policy (n : nat) (o : nat) (m : option (unit * bool)) : nat * Q * unit := (1, inject_Z (Z.of_nat n), tt).
Definition on (stop : nat) (n : nat) := negb (n =? stop).
Definition gather (stop n : nat) := segments ereset enext (fun s => s) rew done_of info_r policy tt (fun a => a) None false (on stop) 2 true 7 9 n.
Example two_segments : gather 100 5 =
  Some [Seg [0; 1] [1; 2]%Q [false; false] [true; false] [1; 2]%Q [0; 1]%Q [1; 1] 2 [] [] [] 2 true;
        Seg [2; 0] [3; 1]%Q [true; false] [false; true] [3; 1]%Q [3; 4]%Q [1; 1] 5 [6]%Q [3] [6]%Q 2 true].
Proof. vm_compute. reflexivity. Qed.
Example on_before : forall u, u < 5 -> on 100 u = true.
Proof. intros u H. unfold on. now rewrite (proj2 (Nat.eqb_neq _ _)) by lia. Qed.
(** Stopped after step 3: the row of that step still has the reward of step 1. *)
Example stopped : gather 3 10 =
  Some [Seg [0; 1] [1; 2]%Q [false; false] [true; false] [1; 2]%Q [0; 1]%Q [1; 1] 2 [] [] [] 2 true;
        Seg [2; 0] [3; 2]%Q [true; false] [false; true] [3; 2]%Q [3; 4]%Q [1; 1] 0 [6]%Q [3] [6]%Q 1 false].
Proof. vm_compute. reflexivity. Qed.
Lemma wrong_reward : exists g, gather 3 10 = Some (map (segment_of ereset enext (fun s => s) rew done_of info_r policy tt (fun a => a) None false 2 7) (seq 0 (3 / 2)) ++ [g]) /\
  ~ row (s_rew g) (3 mod 2) (rew_at ereset enext (fun s => s) rew done_of policy tt (fun a => a) None false 2 7 3).
Proof. eexists. split. rewrite stopped. vm_compute. reflexivity. vm_compute. discriminate. Qed.
(** A learner that answers 2 after the first segment. *)
Definition policy2 (n : nat) (o : nat) (m : option (unit * bool)) : nat * Q * unit := ((if n <? 3 then 1 else 2), 0%Q, tt).
Example first_action_is_old :
  act_at ereset enext (fun s => s) done_of policy2 tt (fun a => a) false 2 7 2 = 1 /\ act_at ereset enext (fun s => s) done_of policy2 tt (fun a => a) false 2 7 3 = 2.
Proof. vm_compute. auto. Qed.
Example agree : forall n o m, n < (0 + 1) * 2 + (0 + 1) -> fst (fst (policy n o m)) = fst (fst (policy2 n o m)).
Proof. intros n o m H. unfold policy, policy2. cbn [fst]. destruct (Nat.ltb_spec n 3); auto. lia. Qed.
