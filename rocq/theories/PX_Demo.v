(** PESAX: concrete runs. *)
From Coq Require Import List Arith ZArith QArith Bool Lia Lqa.
From Verif Require Import Base BaseFacts Space_Model Space_Spec ER_Model Opt_Model Opt_Spec ES_Model PSO_Model DE_Model
  P2_Model P1_Model P1_Spec P1_Demo PX_Model PX_Spec.
Import ListNotations.
Open Scope nat_scope.

(** Two integer parameters between 0 and 9, five individuals, mu = 2, F = 1/2, CR = 1/2. *)
Definition x_par (mech : speed_mech) (cores : nat) : px_par := PxPar (w_par mech cores 5) (1#2) (1#2).
(** ES takes parent 1, DE recombines all coordinates, PSO as in P1_Demo.v, replay takes the third
    sample. *)
Definition x_ded : de_draw := DeDraw 0 1 2 (fun _ => 0%Q) (fun _ => 0%Q) (fun _ => 0) (fun _ => 0%Q) (fun _ => 0).
Definition x_draws (g : nat) : px_draw := PxDraw (fun _ => w_es) (fun _ => x_ded) (fun _ => w_pso g) (fun _ => 2) (fun _ => 2) (fun _ => 2) (fun _ _ => 0%Q).
Definition x_pts : list (Q * Q) := (9, 9)%Q :: list_prod [5; 4; 3; 2]%Q [5; 4; 3; 2]%Q.
Notation x_run mech cores attr ngen given init :=
  (px_evolute w_exp w_tau w_tau w_pw Mmax w_fit (x_par mech cores) attr ngen given x_draws init).
Notation xbrief r := (px_x r, px_y r, px_hist r, px_size r) (only parsing).

Lemma run_of {A B} (o : option A) (f : A -> B) v : option_map f o = Some v -> exists r, o = Some r /\ f r = v.
Proof. destruct o as [r|]; intros H; [|discriminate]. exists r. split; auto. injection H as ->. auto. Qed.

(** These runs meet the requirements. *)
Lemma x_dims_wf : wf_dims w_dims.
Proof.
  assert (I : forall z : Z, is_int (inject_Z z)) by (intros z; exists z; reflexivity).
  assert (Wd : (d_lo (Dim true 0 9) <= d_hi (Dim true 0 9))%Q /\ (d_int (Dim true 0 9) = true -> is_int (d_lo (Dim true 0 9)) /\ is_int (d_hi (Dim true 0 9)))).
  { cbn [d_lo d_hi d_int]. split; [lra|]. intros _. split; [apply (I 0%Z)|apply (I 9%Z)]. }
  constructor; [exact Wd|]. constructor; [exact Wd|constructor].
Qed.
Lemma x_ready mech cores ngen (given : bool) pts : 1 <= ngen -> (if given then 5 <= length pts else 5 < length pts) ->
  incl pts x_pts -> px_ready (x_par mech cores) ngen given (w_init pts).
Proof.
  intros H3 H4 H5.
  assert (I : forall z : Z, is_int (inject_Z z)) by (intros z; exists z; reflexivity).
  constructor; cbn [x_par px_1 w_par p1_dims p1_npop p1_muarg p1_cxpb p1_mutpb]; auto.
  - apply x_dims_wf.
  - intros k E. discriminate.
  - lra.
  - unfold w_init. rewrite map_length. auto.
  - apply Forall_forall. intros o Ho. unfold w_init in Ho. apply in_map_iff in Ho. destruct Ho as ([a b] & <- & Ho). apply H5 in Ho.
    split; [|split; [reflexivity|]]; cbn [fst snd].
    + assert (V : forall v, In v [9; 5; 4; 3; 2]%Q -> ((0 <= v)%Q /\ (v <= 9)%Q /\ (true = true -> is_int v))).
      { intros v Hv. cbn [In] in Hv.
        repeat (destruct Hv as [<-|Hv]; [split; [lra|split; [lra|]]; intros _; first [apply (I 9%Z)|apply (I 5%Z)|apply (I 4%Z)|apply (I 3%Z)|apply (I 2%Z)]|]). destruct Hv. }
      assert (In a [9; 5; 4; 3; 2]%Q /\ In b [9; 5; 4; 3; 2]%Q) as (A & B).
      { destruct Ho as [Ho|Ho]; [injection Ho as <- <-; simpl; auto|]. apply in_prod_iff in Ho. simpl in *. tauto. }
      constructor; [apply V; auto|]. constructor; [apply V; auto|constructor].
    + unfold w_st. constructor; [lra|]. constructor; [lra|constructor].
Qed.
Lemma x_draws_ok : px_draws_ok x_draws.
Proof. intros g i k. cbn. lra. Qed.
Lemma w_fit_respects : respects w_fit.
Proof.
  intros x y H. destruct H as [|a b x y H1 H]; [reflexivity|]. destruct H as [|c d x y H2 H]; [reflexivity|].
  destruct H as [|e f x y H3 H]; cbn [w_fit]; [rewrite H1, H2|]; reflexivity.
Qed.

Lemma x_run_few : exists r, x_run Timew 1 None 2 false (w_init (firstn 6 x_pts)) = Some r /\ xbrief r = ([9;9]%Q, 18%Q, [18;18]%Q, Some 9).
Proof. apply run_of. vm_compute. reflexivity. Qed.
Lemma x_run_cores : exists r, x_run Timew 6 None 2 false (w_init (firstn 6 x_pts)) = Some r /\ (px_y r, px_ws r) = (18%Q, [9#10; 9#10]%Q).
Proof. apply run_of. vm_compute. reflexivity. Qed.
