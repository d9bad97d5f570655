(** PESA: concrete runs. *)
From Coq Require Import List Arith ZArith QArith Bool Lia Lqa.
From Verif Require Import Base BaseFacts Space_Model Space_Spec ER_Model Opt_Model Opt_Spec ES_Model PSO_Model SA_Model SA_Spec
  P2_Model P1_Model P1_Spec.
Import ListNotations.
Open Scope nat_scope.

(** Two integer parameters between 0 and 9; npop = 2; only mutation in ES; constriction factor 0;
    every parameter moves in SA.  [cores] and the speed mechanism vary. *)
Definition w_dims : list dimn := [Dim true 0 9; Dim true 0 9].
Definition w_par (mech : speed_mech) (cores npop : nat) : p1_par :=
  P1Par w_dims npop None (1#10) 1 0 0 1 (205#100) (205#100) mech 0 (fun _ => 1%Q) cores.
(** Generation [g]: ES takes parent 1; SA accepts every move; PSO moves every coordinate to the
    value of index [g] among the others; replayed samples have index 11. *)
Definition w_mut : mdraw := MDraw (fun _ => 0%Q) (fun _ => 0%Q) (fun _ => 0%Q) (fun _ => 0%Q) (fun _ => 0).
Definition w_es : odraw := ODraw (1#2) 1 0 0 0 (fun _ => 0%Q) (fun _ => 0%Q) w_mut.
Definition w_sa (g : nat) : sdraw := SDraw 1 (fun _ => 0%Q) (fun _ _ => 0%Q) (fun _ t => t + 2 * g) 0.
Definition w_pso (g : nat) : pdraw := PDraw (fun _ => 0%Q) (fun _ => 0%Q) (fun _ => 0%Q) (fun _ => 0%Q) (fun _ => g).
Definition w_draws (g : nat) : p1_draw :=
  P1Draw (fun _ => w_es) (fun _ _ => (1%Q, w_sa g)) (fun _ => w_pso g) (fun _ => 11) (fun _ => 11) (fun _ => 11) (fun _ _ => 0%Q).
Definition w_fit (x : list Q) : Q := match x with [a; b] => (a + b)%Q | _ => 0%Q end.
Definition w_st : list Q := [1#2; 1#2]%Q.
Definition w_init (l : list (Q * Q)) : list (list Q * list Q) := map (fun ab => ([fst ab; snd ab], w_st)) l.
Definition w_pts : list (Q * Q) := [(9,9); (5,5); (5,4); (4,4); (4,3); (3,3); (3,2); (2,2); (2,3)]%Q.
Definition w_exp (_ : Q) : Q := 1%Q.
Definition w_tau (_ : nat) : Q := 1%Q.
Definition w_pw (x _ : Q) : Q := x.
Notation w_run mech cores npop attr ngen init :=
  (p1_evolute w_exp w_tau w_tau w_pw Mmax w_fit (w_par mech cores npop) 3 attr ngen w_draws init) (only parsing).


(** These runs meet the requirements. *)
Lemma w_ready mech cores npop ngen pts : 2 <= npop -> npop mod (p1_chains (w_par mech cores npop)) = 0 -> 1 <= ngen -> npop <= length pts ->
  incl pts w_pts -> p1_ready (w_par mech cores npop) ngen (w_init pts).
Proof.
  intros H1 H2 H3 H4 H5.
  assert (I : forall z : Z, is_int (inject_Z z)) by (intros z; exists z; reflexivity).
  constructor; cbn [w_par p1_dims p1_npop p1_muarg p1_cxpb p1_mutpb]; auto.
  - assert (Wd : (d_lo (Dim true 0 9) <= d_hi (Dim true 0 9))%Q /\ (d_int (Dim true 0 9) = true -> is_int (d_lo (Dim true 0 9)) /\ is_int (d_hi (Dim true 0 9)))).
    { cbn [d_lo d_hi d_int]. split; [lra|]. intros _. split; [apply (I 0%Z)|apply (I 9%Z)]. }
    constructor; [exact Wd|]. constructor; [exact Wd|constructor].
  - intros k E. discriminate.
  - lra.
  - unfold w_init. rewrite map_length. auto.
  - apply Forall_forall. intros o Ho. unfold w_init in Ho. apply in_map_iff in Ho. destruct Ho as ([a b] & <- & Ho). apply H5 in Ho.
    split; [|split; [reflexivity|]]; cbn [fst snd].
    + unfold w_pts in Ho. cbn [In] in Ho.
      repeat (destruct Ho as [Ho|Ho]; [injection Ho as <- <-; constructor; [|constructor; [|constructor]]; cbn [d_lo d_hi d_int]; (split; [lra|]; split; [lra|]; intros _;
        first [apply (I 9%Z)|apply (I 5%Z)|apply (I 4%Z)|apply (I 3%Z)|apply (I 2%Z)])|]). destruct Ho.
    + unfold w_st. constructor; [lra|]. constructor; [lra|constructor].
Qed.
Lemma w_draws_ok : p1_draws_ok w_draws.
Proof. split; [intros g j k i t; cbn; lra|intros g i k; cbn; lra]. Qed.
Lemma w_varied mech cores npop : p1_varied (w_par mech cores npop) 3 w_draws.
Proof.
  split; [lia|]. intros g j k i d Hd. right. cbv zeta. exists 0, 1. split; [lia|]. split; [lia|].
  assert (d = Dim true 0 9) as ->. { destruct i as [|[|i]]; cbn in Hd; congruence || (injection Hd as <-; reflexivity) || (destruct i; discriminate). }
  cbn -[Z.modulo Z.of_nat]. intros E. rewrite inject_Z_injective in E.
  pose proof (Z.div_mod (Z.of_nat (g + (g + 0))) 10 ltac:(lia)). pose proof (Z.div_mod (Z.of_nat (S (g + (g + 0)))) 10 ltac:(lia)).
  pose proof (Z.mod_pos_bound (Z.of_nat (g + (g + 0))) 10 ltac:(lia)). pose proof (Z.mod_pos_bound (Z.of_nat (S (g + (g + 0)))) 10 ltac:(lia)).
  lia.
Qed.
Lemma w_exp_pos : forall q, (0 < w_exp q)%Q.
Proof. intros q. unfold w_exp. lra. Qed.

(** Three cases: one process with default memory and few warm-up samples; default memory and many
    warm-up samples; six processes. *)
Notation brief r := (o_x r, o_y r, o_hist r, o_size r) (only parsing).
Lemma w_run_few : exists r, w_run Timew 1 2 None 2 (w_init (firstn 2 w_pts)) = Some r /\ brief r = ([9;9]%Q, 18%Q, [18;18]%Q, Some 10).
Proof.
  destruct (w_run Timew 1 2 None 2 (w_init (firstn 2 w_pts))) as [r|] eqn:E.
  - exists r. split; auto. assert (X : option_map (fun r => brief r) (w_run Timew 1 2 None 2 (w_init (firstn 2 w_pts))) = Some ([9;9]%Q, 18%Q, [18;18]%Q, Some 10)) by (vm_compute; reflexivity).
    rewrite E in X. cbn [option_map] in X. injection X as -> -> -> ->. reflexivity.
  - exfalso. assert (X : match w_run Timew 1 2 None 2 (w_init (firstn 2 w_pts)) with Some _ => true | None => false end = true) by (vm_compute; reflexivity). rewrite E in X. discriminate X.
Qed.
Lemma w_run_many : exists r, w_run Timew 1 2 None 2 (w_init w_pts) = Some r /\ brief r = ([5;4]%Q, 9%Q, [18;9]%Q, Some 13).
Proof.
  destruct (w_run Timew 1 2 None 2 (w_init w_pts)) as [r|] eqn:E.
  - exists r. split; auto. assert (X : option_map (fun r => brief r) (w_run Timew 1 2 None 2 (w_init w_pts)) = Some ([5;4]%Q, 9%Q, [18;9]%Q, Some 13)) by (vm_compute; reflexivity).
    rewrite E in X. cbn [option_map] in X. injection X as -> -> -> ->. reflexivity.
  - exfalso. assert (X : match w_run Timew 1 2 None 2 (w_init w_pts) with Some _ => true | None => false end = true) by (vm_compute; reflexivity). rewrite E in X. discriminate X.
Qed.
Lemma w_run_one : exists r, w_run Timew 1 2 (Some 1) 2 (w_init w_pts) = Some r /\ brief r = ([2;2]%Q, 4%Q, [0;4]%Q, Some 1).
Proof.
  destruct (w_run Timew 1 2 (Some 1) 2 (w_init w_pts)) as [r|] eqn:E.
  - exists r. split; auto. assert (X : option_map (fun r => brief r) (w_run Timew 1 2 (Some 1) 2 (w_init w_pts)) = Some ([2;2]%Q, 4%Q, [0;4]%Q, Some 1)) by (vm_compute; reflexivity).
    rewrite E in X. cbn [option_map] in X. injection X as -> -> -> ->. reflexivity.
  - exfalso. assert (X : match w_run Timew 1 2 (Some 1) 2 (w_init w_pts) with Some _ => true | None => false end = true) by (vm_compute; reflexivity). rewrite E in X. discriminate X.
Qed.
Lemma w_run_first : exists r, w_run Timew 1 2 None 1 (w_init (firstn 2 w_pts)) = Some r /\ o_size r = Some 6.
Proof.
  destruct (w_run Timew 1 2 None 1 (w_init (firstn 2 w_pts))) as [r|] eqn:E.
  - exists r. split; auto. assert (X : option_map o_size (w_run Timew 1 2 None 1 (w_init (firstn 2 w_pts))) = Some (Some 6)) by (vm_compute; reflexivity).
    rewrite E in X. cbn [option_map] in X. injection X as ->. reflexivity.
  - exfalso. assert (X : match w_run Timew 1 2 None 1 (w_init (firstn 2 w_pts)) with Some _ => true | None => false end = true) by (vm_compute; reflexivity). rewrite E in X. discriminate X.
Qed.
Lemma w_run_again : exists r, w_run Timew 1 2 (Some 6) 2 (w_init (firstn 2 w_pts)) = Some r /\ brief r = ([3;3]%Q, 6%Q, [18;6]%Q, Some 6).
Proof.
  destruct (w_run Timew 1 2 (Some 6) 2 (w_init (firstn 2 w_pts))) as [r|] eqn:E.
  - exists r. split; auto. assert (X : option_map (fun r => brief r) (w_run Timew 1 2 (Some 6) 2 (w_init (firstn 2 w_pts))) = Some ([3;3]%Q, 6%Q, [18;6]%Q, Some 6)) by (vm_compute; reflexivity).
    rewrite E in X. cbn [option_map] in X. injection X as -> -> -> ->. reflexivity.
  - exfalso. assert (X : match w_run Timew 1 2 (Some 6) 2 (w_init (firstn 2 w_pts)) with Some _ => true | None => false end = true) by (vm_compute; reflexivity). rewrite E in X. discriminate X.
Qed.
Lemma w_run_cores : exists r, w_run Timew 6 4 None 2 (w_init w_pts) = Some r /\ o_ws r = [9#10; 9#10]%Q /\ o_y r = 18%Q.
Proof.
  destruct (w_run Timew 6 4 None 2 (w_init w_pts)) as [r|] eqn:E.
  - exists r. split; auto. assert (X : option_map (fun r => (o_ws r, o_y r)) (w_run Timew 6 4 None 2 (w_init w_pts)) = Some ([9#10; 9#10]%Q, 18%Q)) by (vm_compute; reflexivity).
    rewrite E in X. cbn [option_map] in X. injection X as -> ->. auto.
  - exfalso. assert (X : match w_run Timew 6 4 None 2 (w_init w_pts) with Some _ => true | None => false end = true) by (vm_compute; reflexivity). rewrite E in X. discriminate X.
Qed.
