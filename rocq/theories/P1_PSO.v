(** Proofs about PESA: particle swarm. *)
From Coq Require Import List Arith ZArith QArith Bool Lia Lqa Permutation Sorted.
From Verif Require Import Base BaseFacts Space_Model Space_Spec Space_Facts Opt_Model Opt_Spec Opt_Facts Opt_Facts2
  ES_Model PSO_Model SA_Model SA_Spec P1_Model P1_Spec P1_ES.
Import ListNotations.
Open Scope nat_scope.

Section PSO.
Context (expf : Q -> Q) (m : mode) (fit : list Q -> Q) (p : p1_par).
Context (W : wf_dims (p1_dims p)).
Local Notation g := (p1_score m fit).
Local Notation ok := (feasible (p1_dims p)).

Lemma q_coord_ok w sf lf dr i d x v lp sp y u :
  (d_lo d <= d_hi d)%Q /\ (d_int d = true -> is_int (d_lo d) /\ is_int (d_hi d)) ->
  (d_lo d <= x)%Q /\ (x <= d_hi d)%Q /\ (d_int d = true -> is_int x) ->
  q_coord expf p w sf lf dr i d x v lp sp = Some (y, u) ->
  (d_lo d <= y)%Q /\ (y <= d_hi d)%Q /\ (d_int d = true -> is_int y).
Proof.
  intros [W1 W2] F H. unfold q_coord in H. cbv zeta in H. apply bind_Some in H. destruct H as (v' & _ & H).
  destruct (d_int d) eqn:E.
  - destruct (W2 eq_refl) as [I1 I2]. apply is_int_trunc in I1. apply is_int_trunc in I2.
    pose proof (trunc_mono _ _ W1) as T.
    destruct (Qltb _ _); [|inversion H; subst; auto].
    destruct (_ =? _)%Z.
    + inversion H; subst. split; [rewrite I1; lra|]. split; [rewrite I1; auto|]. intros _. eexists; reflexivity.
    + apply bind_Some in H. destruct H as (l & Hl & H).
      apply bind_Some in H. destruct H as (z & Hz & H). inversion H; subst. unfold zremove_num in Hl.
      destruct (Qeq_bool _ _); [|discriminate]. apply choice_In in Hz.
      apply (zremove_In _ _ _ (zrange_NoDup _ _) Hl) in Hz. destruct Hz as [Hz _]. apply in_zrange in Hz.
      split; [rewrite <- I1, <- Zle_Qle; lia|]. split; [rewrite <- I2, <- Zle_Qle; lia|]. intros _. eexists; reflexivity.
  - inversion H; subst. clear H. split; [|split; [|congruence]].
    + destruct (Qltb (d_hi d) (x + u)) eqn:A; qprop; match goal with |- context [Qltb ?a ?b] => destruct (Qltb a b) eqn:B end; qprop; lra.
    + destruct (Qltb (d_hi d) (x + u)) eqn:A; qprop; match goal with |- context [Qltb ?a ?b] => destruct (Qltb a b) eqn:B end; qprop; lra.
Qed.
Lemma q_coord_total w sf lf dr i d x v lp sp : (p1_mech p = Globw -> ~ (sf == 0)%Q) ->
  (d_lo d <= x)%Q /\ (x <= d_hi d)%Q /\ (d_int d = true -> is_int x) ->
  exists y u, q_coord expf p w sf lf dr i d x v lp sp = Some (y, u).
Proof.
  intros HG (F1 & F2 & F3). unfold q_coord. cbv zeta.
  match goal with |- context [bind ?a _] => assert (exists v', a = Some v') as (v' & ->) end.
  { destruct (p1_mech p); eauto. destruct (Qeq_bool sf 0) eqn:Z; eauto. apply Qeq_bool_iff in Z. exfalso. apply HG; auto. }
  cbn [bind]. destruct (d_int d) eqn:E; [|eauto]. destruct (Qltb _ _); [|eauto].
  destruct (Z.eqb_spec (trunc (d_lo d)) (trunc (d_hi d))); [eauto|].
  unfold zremove_num. assert (Qeq_bool x (inject_Z (trunc x)) = true) as ->.
  { apply Qeq_bool_iff. symmetry. apply is_int_trunc. auto. }
  assert (d_lo d <= d_hi d)%Q by lra. pose proof (trunc_mono _ _ H).
  destruct (perturb_total x (d_lo d) (d_hi d) (pd_pick dr i) F1 F2 ltac:(lia)) as (z & Hz & _).
  destruct (zremove _ _); [|discriminate]. cbn [bind]. rewrite Hz. cbn [bind]. eauto.
Qed.

Lemma q_coords_ok w sf lf dr : forall ds i x v lp sp y u, wf_dims ds -> feasible ds x ->
  q_coords expf p w sf lf dr i ds x v lp sp = Some (y, u) -> feasible ds y /\ length u = length ds.
Proof.
  induction ds as [|d ds IH]; intros i x v lp sp y u W0 F H; cbn [q_coords] in H.
  - inversion H; subst. split; [constructor|reflexivity].
  - inversion F as [|? a ? x' Fa Fx]; subst. destruct v as [|b v]; [discriminate|].
    destruct lp as [|c lp]; [discriminate|]. destruct sp as [|e sp]; [discriminate|].
    apply bind_Some in H. destruct H as ([y0 u0] & E1 & H). apply bind_Some in H. destruct H as ([ys us] & E2 & H).
    inversion H; subst. inversion W0 as [|? ? Wd W']; subst.
    destruct (IH _ _ _ _ _ _ _ W' Fx E2) as [I1 I2].
    split; [constructor; [eapply q_coord_ok; eauto|exact I1]|simpl; auto].
Qed.
Lemma q_coords_total w sf lf dr : (p1_mech p = Globw -> ~ (sf == 0)%Q) -> forall ds i x v lp sp, feasible ds x ->
  length v = length ds -> length lp = length ds -> length sp = length ds ->
  exists y u, q_coords expf p w sf lf dr i ds x v lp sp = Some (y, u).
Proof.
  intros HG. induction ds as [|d ds IH]; intros i x v lp sp F L1 L2 L3; cbn [q_coords]; eauto.
  inversion F as [|? a ? x' Fa Fx]; subst.
  destruct v as [|b v]; [discriminate|]. destruct lp as [|c lp]; [discriminate|]. destruct sp as [|e sp]; [discriminate|].
  destruct (q_coord_total w sf lf dr i d a b c e HG Fa) as (y & u & ->). cbn [bind].
  destruct (IH (S i) x' v lp sp) as (ys & us & ->); auto. cbn [bind]. eauto.
Qed.

(** Particles before and after a move. *)
Definition par_ok (a : par1) : Prop := ok (q_pos a) /\ length (q_vel a) = length (p1_dims p) /\ ok (q_lpos a).

Lemma q_move_ok w pos best drs i a b : par_ok a -> q_move expf p w pos best drs i a = Some b -> par_ok b.
Proof.
  intros (P1 & P2 & P3) H. unfold q_move in H. apply bind_Some in H. destruct H as ([x v] & E & H).
  inversion H; subst. apply q_coords_ok in E; auto. destruct E as [E1 E2]. split; auto.
Qed.

Lemma q_eval_ok l : forall pos best l' pos' best', Forall par_ok l -> ok pos -> (best == g pos)%Q ->
  q_eval m fit pos best l = (l', (pos', best')) ->
  Forall par_ok l' /\ length l' = length l /\ ok pos' /\ (best' == g pos')%Q /\ In pos' (pos :: map q_pos l) /\ map q_pos l' = map q_pos l /\
  Forall (fun a => q_fit a = g (q_pos a)) l'.
Proof.
  induction l as [|a l IH]; intros pos best l' pos' best' F HO HB H; cbn [q_eval] in H.
  - injection H as <- <- <-. simpl. auto 10.
  - inversion F as [|? ? (P1 & P2 & P3) F']; subst. cbv zeta in H.
    destruct (if Qltb (q_lfit a) (g (q_pos a)) && Qltb best (g (q_pos a)) then (q_pos a, g (q_pos a)) else (pos, best)) as [pos1 best1] eqn:E1.
    destruct (q_eval m fit pos1 best1 l) as [r' [pos2 best2]] eqn:E2. injection H as <- <- <-.
    assert (N : ok pos1 /\ (best1 == g pos1)%Q /\ In pos1 [pos; q_pos a]).
    { destruct (_ && _); injection E1 as <- <-; simpl; auto. split; auto. split; auto. reflexivity. }
    destruct N as (N1 & N2 & N3). destruct (IH _ _ _ _ _ F' N1 N2 E2) as (J1 & J2 & J3 & J4 & J5 & J6 & J7).
    split. { constructor; auto. split; [auto|]. split; [auto|]. cbn [q_lpos]. destruct (Qltb _ _); auto. }
    split; [simpl; auto|]. split; [auto|]. split; [auto|]. split.
    { destruct J5 as [<-|J5]; [|right; right; auto]. destruct N3 as [<-|[<-|[]]]; [left|right; left]; auto. }
    split; [simpl; f_equal; auto|]. constructor; auto.
Qed.

(** One PSO generation: survivors and evaluated points. *)
Lemma pso_mod_ok step steps drs w pos best swarm sw pb w' s3 : Forall par_ok swarm -> ok pos -> (best == g pos)%Q ->
  1 <= p1_mu p -> p1_mu p <= p1_npop p ->
  pso_mod expf m fit p step steps drs w pos best swarm = Some (sw, pb, w', s3) ->
  length s3 = p1_npop p /\ Forall ok s3 /\ length sw = p1_mu p /\ Forall par_ok sw /\
  Forall (fun a => In (q_pos a) s3 /\ q_fit a = g (q_pos a)) sw /\
  ok (fst pb) /\ (snd pb == g (fst pb))%Q /\ In (fst pb) (pos :: s3) /\
  (forall x, In x s3 -> exists a, In a sw /\ (g x <= q_fit a)%Q).
Proof.
  intros F HO HB M1 M2 H. unfold pso_mod in H. destruct (negb _) eqn:N; [discriminate|]. apply negb_false_iff, Nat.eqb_eq in N.
  apply bind_Some in H. destruct H as (moved & Hm & H).
  destruct (q_eval m fit pos best moved) as [sw0 [pos' best']] eqn:EV.
  assert (MU : (if p1_mu p =? 0 then p1_npop p else p1_mu p) = p1_mu p) by (destruct (Nat.eqb_spec (p1_mu p) 0); lia).
  rewrite MU in H. injection H as <- <- <- <-.
  assert (FM : Forall par_ok moved) by (eapply traverse_Forall; [|exact F|exact Hm]; intros k a b; apply q_move_ok).
  destruct (traverse_spec _ _ _ _ Hm) as (LM & _).
  destruct (q_eval_ok _ _ _ _ _ _ FM HO HB EV) as (J1 & J2 & J3 & J4 & J5 & J6 & J7).
  rewrite map_length. split; [congruence|]. split. { rewrite Forall_map. eapply Forall_impl; [|exact FM]. intros a (A & _). exact A. }
  assert (IS : forall a, In a (q_select sw0 (p1_mu p)) -> In a sw0).
  { intros a Ha. unfold q_select in Ha. apply in_firstn in Ha. apply in_sort_desc in Ha. auto. }
  split. { unfold q_select. rewrite firstn_length, sort_desc_length. lia. }
  split. { rewrite Forall_forall in *. auto. }
  split. { rewrite Forall_forall in *. intros a Ha. apply IS in Ha. split; auto. rewrite <- J6. apply in_map; auto. }
  cbn [fst snd]. split; auto. split; auto. split; auto.
  intros x Hx. rewrite <- J6 in Hx. apply in_map_iff in Hx. destruct Hx as (a & <- & Ha).
  destruct (select_dominates q_fit sw0 (p1_mu p) a M1 Ha) as (b & B1 & B2). exists b. split; auto.
  rewrite Forall_forall in J7. rewrite <- (J7 a Ha). exact B2.
Qed.
Lemma pso_mod_total step steps drs w pos best swarm : Forall par_ok swarm -> ok pos -> length swarm = p1_npop p ->
  (p1_mech p = Globw -> ~ (best == 0)%Q) ->
  exists sw pb w' s3, pso_mod expf m fit p step steps drs w pos best swarm = Some (sw, pb, w', s3).
Proof.
  intros F HO L HG. unfold pso_mod. rewrite L, Nat.eqb_refl. cbn [negb].
  destruct (traverse_total (q_move expf p w pos best drs) par_ok swarm 0) as (moved & ->); auto.
  - intros k a (P1 & P2 & P3). unfold q_move.
    destruct (q_coords_total w best (q_lfit a) (drs k) HG (p1_dims p) 0 (q_pos a) (q_vel a) (q_lpos a) pos) as (y & u & ->); auto.
    + apply feasible_length; auto.
    + apply feasible_length; auto.
    + cbn [bind]. eauto.
  - cbn [bind]. destruct (q_eval m fit pos best moved) as [sw0 pb]. eauto 10.
Qed.
End PSO.
