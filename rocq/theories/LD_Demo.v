(** Log directories: examples. *)
From Coq Require Import Ascii String List Arith Bool Lia.
From Verif Require Import LD_Model LD_Spec LD_Proofs LD_Final.
Import ListNotations.
Open Scope nat_scope.

Lemma entry_in : forall fs p n, entry fs p = Some n -> In (p, n) fs.
Proof.
  induction fs as [|[q m] fs IH]; intros p n H; cbn in H; [discriminate|].
  destruct (path_eqb_spec q p) as [->|]; [injection H as ->; left; reflexivity|right; auto].
Qed.
Lemma tree_list : forall fs, (forall q n, In (q, n) fs -> lookup fs (removelast q) = Some DirN) -> tree fs.
Proof.
  intros fs H p a n E. destruct (path_eqb_spec (p ++ [a]) ["/"%string]) as [Er|Er].
  - destruct p as [|b [|c p]]; [reflexivity|discriminate|discriminate].
  - rewrite lookup_entry in E; [|destruct p; discriminate|exact Er]. apply entry_in in E. apply H in E.
    rewrite removelast_last in E. exact E.
Qed.

Definition digit (n : nat) : string := String (ascii_of_nat (48 + n)) "".
(** A directory with the log of one run and of the run before. *)
Definition fs0 : fsys :=
  [(["case_log"], DirN); (["case_log"; "dqn_out.csv"], FileN "second"); (["case_log"; "tensor"], DirN);
   (["old_case_log"], DirN); (["old_case_log"; "dqn_out.csv"], FileN "first"); (["notes"], FileN "mine")]%string.
Lemma tree0 : tree fs0.
Proof.
  apply tree_list. intros q n H. cbn in H.
  repeat (destruct H as [H|H]; [injection H as <- <-; reflexivity|]). destruct H.
Qed.
Definition run0 := initfiles digit ["dqn"; "ga"]%string 3 1 ["x"%string] ["cost"%string] (log_dir "case.inp") fs0.
Definition after0 : fsys := match run0 with Done f => f | Raised f => f end.
Example run0_done :
  run0 = Done after0 /\
  lookup after0 ["old_case_log"; "dqn_out.csv"]%string = Some (FileN "second") /\
  lookup after0 ["old_case_log"; "tensor"]%string = Some DirN /\
  lookup after0 ["case_log"; "dqn_inp.csv"]%string = Some (FileN ("caseid,reward,x1,x2,x3" ++ String (ascii_of_nat 10) "")) /\
  lookup after0 ["case_log"; "ga_out.csv"]%string = Some (FileN ("caseid,reward,cost" ++ String (ascii_of_nat 10) "")) /\
  lookup after0 ["case_log"; "tensor"]%string = None /\ lookup after0 ["notes"]%string = Some (FileN "mine").
Proof. vm_compute. repeat split; reflexivity. Qed.
Example names_demo : log_of "case.inp" = ["case_log"]%string /\ old_of "case.inp" = ["old_case_log"]%string /\
  log_of "runs/case.inp" = ["runs"; "case_log"]%string /\ old_of "runs/case.inp" = ["old_runs"; "case_log"]%string /\
  log_of "/home/case.inp" = ["/"; "home"; "case_log"]%string /\ old_of "/home/case.inp" = ["old_"; "home"; "case_log"]%string.
Proof. vm_compute. repeat split; reflexivity. Qed.
Example lookup0 : lookup fs0 (log_of "case.inp") = Some DirN /\ lookup fs0 (log_of "other.inp") = None /\
  no_slash (before_dot "case.inp") = true /\ checked 3 "x" ["x"]%string = true /\ checked 1 "y" ["cost"]%string = true.
Proof. vm_compute. repeat split; reflexivity. Qed.

(** The log of the run before the last one is lost. *)
Lemma lost_ld : exists fs fs' text, tree fs /\ (exists p, lookup fs p = Some (FileN text)) /\
  initfiles digit ["dqn"; "ga"]%string 3 1 ["x"%string] ["cost"%string] (log_dir "case.inp") fs = Done fs' /\
  forall p, lookup fs' p <> Some (FileN text).
Proof.
  exists fs0, after0, "first"%string. split; [exact tree0|]. split; [exists ["old_case_log"; "dqn_out.csv"]%string; reflexivity|].
  split; [exact (proj1 run0_done)|]. intros p. destruct p as [|a p]; [discriminate|]. unfold lookup.
  destruct (path_eqb (a :: p) ["/"%string]); [discriminate|]. intros H. apply entry_in in H. revert H.
  generalize (a :: p) as q. intros q H. vm_compute in H.
  repeat (destruct H as [H|H]; [discriminate|]). destruct H.
Qed.

(** An input file in a directory: the first run makes the log directory, the second raises. *)
Definition fs1 : fsys := [(["runs"], DirN); (["runs"; "case.inp"], FileN "input")]%string.
Definition first1 := initfiles digit ["dqn"]%string 3 1 ["x"%string] ["y"%string] (log_dir "runs/case.inp") fs1.
Lemma directory_ld : exists fs fs', tree fs /\
  initfiles digit ["dqn"]%string 3 1 ["x"%string] ["y"%string] (log_dir "runs/case.inp") fs = Done fs' /\
  initfiles digit ["dqn"]%string 3 1 ["x"%string] ["y"%string] (log_dir "runs/case.inp") fs' = Raised fs'.
Proof.
  exists fs1, (match first1 with Done f => f | Raised f => f end). split; [|split].
  - apply tree_list. intros q n H. cbn in H. repeat (destruct H as [H|H]; [injection H as <- <-; reflexivity|]). destruct H.
  - vm_compute. reflexivity.
  - vm_compute. reflexivity.
Qed.

(** ** Names of log directories. *)
Lemma log_dir_eq : forall a b, log_dir a = log_dir b <-> before_dot a = before_dot b.
Proof.
  intros a b. unfold log_dir. split; intros H; [|rewrite H; reflexivity]. apply str_app_inj in H; [|reflexivity]. apply H.
Qed.
Lemma before_dot_ext : forall a s, before_dot (a ++ "." ++ s) = before_dot (a ++ ".").
Proof. induction a as [|c a IH]; intros s; cbn; [reflexivity|]. destruct (ascii_dec c "."); [reflexivity|]. cbn in IH. rewrite IH. reflexivity. Qed.
Lemma shared_ld : forall a s t, log_dir (a ++ "." ++ s) = log_dir (a ++ "." ++ t).
Proof. intros a s t. apply log_dir_eq. rewrite (before_dot_ext a s), (before_dot_ext a t). reflexivity. Qed.
Lemma dotted_ld : forall s, log_dir ("." ++ s) = "_log/"%string.
Proof. reflexivity. Qed.
