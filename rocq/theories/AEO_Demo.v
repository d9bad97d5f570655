(** Concrete AEO runs. *)
From Coq Require Import List Arith ZArith QArith Bool Permutation Lia Lqa.
From Verif Require Import Base BaseFacts Space_Model Opt_Model Opt_Spec AEO_Model AEO_Spec.
Import ListNotations.
Open Scope nat_scope.

Definition first (x : list Q) : Q := match x with [] => 0%Q | a :: _ => a end.
(** Strategies that keep their individuals and evaluate them. *)
Definition stay_ev : strategies := fun _ _ ms => Some (map (fun x => (x, first x)) ms, ms).
Definition dr0 : adraw := ADraw
  (fun _ _ n w => if Qeq_bool w 0 then 0 else Nat.min n 2) (fun _ _ n e => seq 0 e)
  (fun _ l => rev l) (fun _ k p => match p with [] => [] | _ :: r => k :: map (fun _ => 0) r end).
Definition pw0 (x a : Q) : Q := x.
Definition pa0 : apar := APar Up false false (Const 1) Weighted WB Up false true 3.
Definition algs0 := [aMFO; aJAYA].
Definition x00 : list (list Q) := map (fun z => [inject_Z z]) [4; 2; 3; 1; 7; 6; 8; 5]%Z.
Definition pop00 := [0; 0; 0; 0; 1; 1; 1; 1].
Definition run0 := aeo_evolute pw0 pa0 stay_ev dr0 2 first algs0 (fun _ => false) [] x00 pop00.

Lemma dr0_ok : draws_ok dr0.
Proof.
  constructor; cbn.
  - intros c j n w _ _. destruct (Qeq_bool w 0); lia.
  - intros c j n e H. split; [apply seq_NoDup|]. split; [apply seq_length|]. apply Forall_forall. intros i Hi. apply in_seq in Hi. lia.
  - intros c l. symmetry. apply Permutation_rev.
  - intros c k [|a p] H; [contradiction|]. cbn. rewrite map_length. split; auto.
    assert (E : forall l : list Q, fold_right Nat.add 0 (map (fun _ => 0) l) = 0) by (induction l; auto). rewrite E. lia.
Qed.
Lemma pw0_ok : power_ok pw0. Proof. intros x a. split; auto. Qed.
Lemma stay_keeps : keeps_size stay_ev.
Proof. intros c j ms last seen H. injection H as <- <-. apply map_length. Qed.
Lemma stay_honest : honest first stay_ev.
Proof. intros c j ms last seen H. injection H as <- <-. apply Forall_map, Forall_forall. cbn. reflexivity. Qed.
Lemma stay_total : never_raises stay_ev.
Proof. intros c j ms H. exists (map (fun x => (x, first x)) ms), ms. split; auto. Qed.
Lemma set0_ok : settings_ok pa0 2.
Proof. split; [lia|]. split; [cbn; lia|]. split; [cbn; lra|]. right. discriminate. Qed.
Lemma enough0 : enough algs0 pop00.
Proof. split; [discriminate|]. intros [|[|[|i]]] a H; cbn in H; try discriminate; injection H as <-; split; cbn; auto. Qed.

(** Two individuals (the worst of the second population) moved in the first cycle; the second
    population is then too small to evolve. *)
Example run0_result : exists st, run0 = Some ([1%Q], 1%Q, st) /\
  map (fun lg => (map ap_mem (cl_after lg), cl_mig lg, cl_n lg)) (as_logs st) =
  ([([[[4]; [3]; [2]; [1]; [8]; [7]]; [[6]; [5]]], true, [4; 4]%nat); ([[[8]; [7]; [4]; [3]; [2]; [1]; [6]; [5]]; []], true, [6; 2]%nat)])%Q.
Proof. eexists. split; vm_compute; reflexivity. Qed.
(** Labels that name no population: the individual disappears. *)
Example lost_label : length (individuals (initial algs0 x00 [0; 0; 0; 0; 1; 1; 1; 2])) = 7. Proof. reflexivity. Qed.
(** A constant q outside [-1,1] is accepted by the constructor. *)
Definition paq : apar := APar Up false false (Const 3) Weighted WB Up false true 3.
Example q3_raises : aeo_evolute pw0 paq stay_ev dr0 2 first algs0 (fun _ => false) [] x00 pop00 = None.
Proof. vm_compute. reflexivity. Qed.
