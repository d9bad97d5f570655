(** What NHHO reports is on the scale of its networks, not of the fitness. *)
From Coq Require Import List Arith ZArith QArith Qabs Qround Bool Lia Lqa Permutation.
From Verif Require Import Base BaseFacts Space_Model Space_Spec Space_Facts Opt_Model Opt_Spec Opt_Facts Opt_Facts2
  Pop_Model Pop_Spec Pop_Proofs Swarm_Model Swarm_Proofs HHO_Model HHO_Proofs P2_Model SG_Model SG_Spec SG_Latin SG_GA SG_NGA SG_NHHO.
Import ListNotations.
Open Scope nat_scope.

Lemma fold_min_le r : forall a, (fold_left qmin2 r a <= a)%Q /\ forall y, In y r -> (fold_left qmin2 r a <= y)%Q.
Proof.
  induction r as [|b r IH]; intros a; simpl; [split; [apply Qle_refl|tauto]|]. destruct (IH (qmin2 a b)) as (A & B).
  assert (M : (qmin2 a b <= a)%Q /\ (qmin2 a b <= b)%Q) by (unfold qmin2; destruct (Qle_bool a b) eqn:E; qprop; lra).
  split; [lra|]. intros y [->|H]; [lra|auto].
Qed.
Lemma fold_max_ge r : forall a, (a <= fold_left qmax2 r a)%Q /\ forall y, In y r -> (y <= fold_left qmax2 r a)%Q.
Proof.
  induction r as [|b r IH]; intros a; simpl; [split; [apply Qle_refl|tauto]|]. destruct (IH (qmax2 a b)) as (A & B).
  assert (M : (a <= qmax2 a b)%Q /\ (b <= qmax2 a b)%Q) by (unfold qmax2; destruct (Qle_bool b a) eqn:E; qprop; lra).
  split; [lra|]. intros y [->|H]; [lra|auto].
Qed.
Lemma minmax_unit ys y : In y ys -> (0 <= minmax ys y <= 1)%Q.
Proof.
  destruct ys as [|a r]; [intros []|]. intros H. unfold minmax. destruct (fold_min_le r a) as (A1 & A2). destruct (fold_max_ge r a) as (B1 & B2).
  set (lo := fold_left qmin2 r a) in *. set (hi := fold_left qmax2 r a) in *. clearbody lo hi.
  assert (L : (lo <= y <= hi)%Q) by (destruct H as [->|H]; [lra|split; auto]). destruct (Qeq_bool hi lo) eqn:E.
  - apply Qeq_bool_iff in E. lra.
  - assert (lo < hi)%Q. { destruct (Qlt_le_dec lo hi); auto. assert (hi == lo)%Q by lra. apply Qeq_bool_iff in H0. congruence. }
    split; [apply Qle_shift_div_l; lra|apply Qle_shift_div_r; lra].
Qed.

Section U.
Context (net : Type) (raw : nat -> nat -> tset -> tset -> net) (predict : net -> list Q -> Q) (sqrtf : Q -> Q) (ts : Q) (sh : nat -> nat -> nat -> nat).
Context (B : within_targets raw predict).
Lemma trained_unit c k data x : (0 <= predict (nn_train raw sqrtf ts sh c k data) x <= 1)%Q.
Proof.
  unfold nn_train. cbv zeta. apply B. apply Forall_map. apply Forall_forall. intros p Hp. cbn [snd]. apply minmax_unit. apply in_map. auto.
Qed.
Lemma reported_unit expf m fit ds mt n warm ngen x0 lw lp drs r : wf_dims ds -> discrete_ok mt ds -> (forall i j, 0 <= lh_u lw i j <= 1)%Q -> (forall i j, 0 <= lh_u lp i j <= 1)%Q ->
  good_hawks ds n x0 -> nh_evolute net (nn_train raw sqrtf ts sh) predict expf m fit ds mt n ts warm ngen x0 lw lp drs = Some r ->
  forall i y, nth_error (hy r) i = Some y -> match m with Mmin => (0 <= y <= 1)%Q | Mmax => (-1 <= y <= 0)%Q end.
Proof.
  intros W DO Uw Up X0 H i y Hy. destruct (nh_report _ _ _ _ _ _ _ _ W DO _ _ _ _ _ _ _ _ Uw Up X0 r H) as (_ & Ly & Lt & _ & samples & dives & _ & _ & _ & _ & _ & T & _).
  assert (Hi : i < length (h_trace r)) by (rewrite Lt, <- Ly; apply nth_error_Some; congruence).
  destruct (nth_error (h_trace r) i) as [s|] eqn:Es; [|apply nth_error_None in Es; lia].
  destruct (T i s Es) as (_ & _ & x & y' & _ & Y & p0 & p1 & p2 & _ & G). assert (Ey : Some y = Some y') by (rewrite <- Hy; exact Y). inversion Ey; subst y'; clear Ey.
  unfold nhho_generation in G. cbv zeta in G. destruct G as (_ & _ & _ & _ & G). unfold mean3 in G.
  pose proof (trained_unit (i + 1) 0 p0 x). pose proof (trained_unit (i + 1) 1 p1 x). pose proof (trained_unit (i + 1) 2 p2 x).
  set (a := predict (nn_train raw sqrtf ts sh (i + 1) 0 p0) x) in *. set (b := predict (nn_train raw sqrtf ts sh (i + 1) 1 p1) x) in *. set (c := predict (nn_train raw sqrtf ts sh (i + 1) 2 p2) x) in *.
  assert (E3 : ((a + b + c) / 3 == (a + b + c) * (1#3))%Q) by field. destruct m; simpl in G; rewrite G, E3; lra.
Qed.
End U.
