(** Cases that meet the hypotheses of C128. *)
From Coq Require Import ZArith String List Bool Lia Permutation.
From Verif Require Import CU_Model CU_Spec CU_Proofs.
Import ListNotations.
Open Scope list_scope.
Open Scope Z_scope.
(** Three environments from rank 8 on, where the log of rank 9 exists already, and a directory has the name of rank 10. *)
Definition disk : fs := fun p =>
  if String.eqb p "logs" then Some Dir else if String.eqb p "logs/9.monitor.csv" then Some (File ["an episode"%string])
  else if String.eqb p "logs/10" then Some Dir else None.
Definition three : config := Config (Id "CartPole-v1") (Some 5) 8 (Some "logs"%string) true [("gravity"%string, 9)].
Example three_usable : usable three disk (ranks 3 (start_index three)).
Proof.
  intros d [= <-]. split; [discriminate|]. split; [discriminate|]. intros r p I. cbn in I. destruct I as [<-|[<-|[<-|[]]]]; intros [= <-]; reflexivity.
Qed.
Example three_made : exists f', make_vec_env three 3 disk = Some (f',
   [Env (Made "CartPole-v1") (Some 13) (Some 13) (Some "logs/8.monitor.csv"%string) true;
    Env (Made "CartPole-v1") (Some 14) (Some 14) (Some "logs/9.monitor.csv"%string) true;
    Env (Made "CartPole-v1") (Some 15) (Some 15) (Some "logs/10/monitor.csv"%string) true], 3%nat)
  /\ f' "logs/9.monitor.csv"%string = Some (File []).
Proof. eexists. split; reflexivity. Qed.
Example three_orders : Permutation [10; 8; 9] (ranks 3 (start_index three)).
Proof. cbn. change [8; 9; 10] with ([8; 9] ++ [10]). apply (Permutation_cons_append [8; 9] 10). Qed.
Example kwargs_class : exists f', make_vec_env (Config Class None 0 None false [("gravity"%string, 9)]) 1 disk
  = Some (f', [Env (Constructed [("gravity"%string, 9)]) None None None false], 0%nat).
Proof. eexists. reflexivity. Qed.
