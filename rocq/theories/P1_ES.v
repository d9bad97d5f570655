(** Proofs about PESA: the evolution strategy. *)
From Coq Require Import List Arith ZArith QArith Qround Bool Lia Lqa Permutation Sorted.
From Verif Require Import Base BaseFacts Space_Model Space_Spec Space_Facts Opt_Model Opt_Spec Opt_Facts Opt_Facts2
  ES_Model ES_Spec ES_Proofs PSO_Model SA_Model SA_Spec P1_Model P1_Spec.
Import ListNotations.
Open Scope nat_scope.

Lemma smin_ok p : 2 <= length (p1_dims p) -> (0 < p1_smin p)%Q /\ (p1_smin p <= p1_smax)%Q.
Proof.
  intros H. unfold p1_smin, p1_smax.
  assert (2 <= inject_Z (Z.of_nat (length (p1_dims p))))%Q.
  { change 2%Q with (inject_Z 2). rewrite <- Zle_Qle. lia. }
  split.
  - apply Qlt_shift_div_l; lra.
  - apply Qle_shift_div_r; lra.
Qed.

(** The best of a list survives a selection of at least one. *)
Lemma select_dominates {A} (f : A -> Q) l k a : 1 <= k -> In a l ->
  exists b, In b (firstn k (sort_desc f l)) /\ (f a <= f b)%Q.
Proof.
  intros K H. apply (in_sort_desc f) in H. pose proof (sort_desc_sorted f l) as St.
  destruct (sort_desc f l) as [|b r]; [destruct H|]. destruct k; [lia|]. exists b. split; [left; auto|].
  inversion St as [|? ? _ S2]; subst. destruct H as [<-|H]; [lra|]. rewrite Forall_forall in S2. apply S2; auto.
Qed.

Section ES.
Context (expf : Q -> Q) (tau tau' : nat -> Q) (m : mode) (fit : list Q -> Q) (p : p1_par).
Context (W : wf_dims (p1_dims p)) (D2 : 2 <= length (p1_dims p)).

Definition mem_ok (a : member) : Prop := p1_individual p (m_ind a, m_strat a).

Lemma e_coord_int n dr i d x s y t : e_coord expf tau tau' p n dr i d x s = Some (y, t) -> d_int d = true -> is_int y.
Proof.
  destruct (smin_ok p D2) as [A B]. unfold e_coord. intros H E. rewrite E in H. cbn [andb] in H.
  destruct (Qeq_bool _ 0) eqn:Z; [inversion H; subst; eexists; reflexivity|].
  apply mut_coord_int in H; auto; [tauto|]. apply Qle_lteq in B. destruct B as [B|B]; auto.
  exfalso. apply Qeq_bool_neq in Z. apply Z. rewrite B. unfold Qminus. apply Qplus_opp_r.
Qed.
Lemma mut_total_pos smin smax n dr i d x s : (forall q, 0 < expf q)%Q -> (smin < smax)%Q -> (0 < s)%Q -> (s <= 1)%Q ->
  (d_lo d <= x)%Q -> (x <= d_hi d)%Q -> exists y t, mut_coord expf tau tau' smin smax n dr i d x s = Some (y, t).
Proof.
  intros He H1 H3 H4 H5 H6. unfold mut_coord. destruct (d_int d); [|eauto].
  assert (E1 : Qeq_bool s 0 = false).
  { destruct (Qeq_bool s 0) eqn:E; auto. apply Qeq_bool_iff in E. lra. }
  assert (E2 : Qeq_bool (smax - smin) 0 = false).
  { destruct (Qeq_bool (smax - smin) 0) eqn:E; auto. apply Qeq_bool_iff in E. lra. }
  rewrite E1, E2. cbn [orb]. cbv zeta.
  match goal with |- context [Qeq_bool ?q 0] => assert (E3 : (0 < q)%Q) end.
  { assert (0 <= (1 - s) / s)%Q. { apply Qle_shift_div_l; lra. }
    match goal with |- context [expf ?a] => pose proof (He a) end. nra. }
  match goal with |- context [Qeq_bool ?q 0] => destruct (Qeq_bool q 0) eqn:E4; [apply Qeq_bool_iff in E4; lra|] end.
  destruct (Qltb _ _); [|eauto].
  destruct (Z.eqb_spec (trunc (d_lo d)) (trunc (d_hi d))); [eauto|].
  assert (d_lo d <= d_hi d)%Q by lra. pose proof (trunc_mono _ _ H).
  destruct (perturb_total x (d_lo d) (d_hi d) (md_pick dr i) H5 H6 ltac:(lia)) as (z & Hz & _).
  destruct (zremove _ _); [|discriminate]. rewrite Hz. eauto.
Qed.
Lemma clip_strat s : Forall (fun s => 0 < s /\ s <= 1 # 2)%Q (map (np_clip (p1_smin p) p1_smax) s).
Proof.
  destruct (smin_ok p D2) as [A B]. eapply Forall_impl; [|apply (np_clip_strat _ _ s B)]. intros q (Q1 & Q2). unfold p1_smax in *. split; lra.
Qed.
Lemma e_coord_total n dr i d x s : (forall q, 0 < expf q)%Q -> (0 < s)%Q -> (s <= p1_smax)%Q ->
  (d_lo d <= x)%Q -> (x <= d_hi d)%Q -> exists y t, e_coord expf tau tau' p n dr i d x s = Some (y, t).
Proof.
  intros He S1 S2 I1 I2. destruct (smin_ok p D2) as [A B]. unfold e_coord. destruct (d_int d) eqn:E; cbn [andb].
  - destruct (Qeq_bool _ 0) eqn:Z; [eauto|]. apply mut_total_pos; auto; [|unfold p1_smax in *; lra].
    apply Qle_lteq in B. destruct B as [B|B]; auto.
    exfalso. apply Qeq_bool_neq in Z. apply Z. rewrite B. unfold Qminus. apply Qplus_opp_r.
  - unfold mut_coord. rewrite E. eauto.
Qed.

Lemma e_coords_shape n dr : forall ds i v st v' st', e_coords expf tau tau' p n dr i ds v st = Some (v', st') ->
  length st' = length ds /\ Forall2 (fun d x => d_int d = true -> is_int x) ds v'.
Proof.
  induction ds as [|d ds IH]; intros i v st v' st' H; cbn [e_coords] in H.
  - inversion H; subst. split; auto.
  - destruct v as [|x v]; [discriminate|]. destruct st as [|s st]; [discriminate|].
    apply bind_Some in H. destruct H as ([y t] & E & H). apply bind_Some in H. destruct H as ([ys ts] & E2 & H).
    inversion H; subst. destruct (IH _ _ _ _ _ E2) as [I1 I2]. split; [simpl; lia|].
    constructor; auto. intros Ei. eapply e_coord_int; eauto.
Qed.

Lemma e_mut_ok dr ind st v s : e_mut expf tau tau' p dr ind st = Some (v, s) -> p1_individual p (v, s).
Proof.
  intros H. unfold e_mut in H. apply bind_Some in H. destruct H as ([v0 s0] & E & H). inversion H; subst.
  apply e_coords_shape in E. destruct E as [E1 E2]. split; [|split]; simpl.
  - apply clip_feasible; auto.
  - rewrite map_length. auto.
  - apply clip_strat.
Qed.
Lemma e_mut_total dr ind st : (forall q, 0 < expf q)%Q -> p1_individual p (ind, st) ->
  exists v s, e_mut expf tau tau' p dr ind st = Some (v, s).
Proof.
  intros He (F & L2 & HS). cbn [fst snd] in *. unfold e_mut. rewrite dims_bounds_eq.
  pose proof (clip_inside _ _ W (feasible_length _ _ F)) as I. set (c := clip_vec (dim_bounds (p1_dims p)) ind) in *. clearbody c.
  enough (exists v s, e_coords expf tau tau' p (length ind) dr 0 (p1_dims p) c st = Some (v, s)) as (v & s & ->) by (cbn [bind]; eauto).
  generalize 0 as i. generalize (length ind) as n. apply inside_dims in I. clear F.
  assert (G : forall ds, Forall2 (fun d x => (d_lo d <= x)%Q /\ (x <= d_hi d)%Q) ds c -> length st = length ds ->
    forall n i, exists v s, e_coords expf tau tau' p n dr i ds c st = Some (v, s)); [|intros n i; apply G; auto].
  clear I L2. intros ds I. revert st HS. induction I as [|d x ds v [I1 I2] I IH]; intros st HS L2 n i; cbn [e_coords]; eauto.
  destruct st as [|s st]; [discriminate|]. inversion HS as [|? ? [S1 S2] S']; subst.
  destruct (e_coord_total n dr i d x s He S1 S2 I1 I2) as (y & t & ->). cbn [bind].
  destruct (IH st S' ltac:(simpl in L2; lia) n (S i)) as (ys & ts & ->). cbn [bind]. eauto.
Qed.

Lemma e_one_ok dr pop pop' x s : Forall mem_ok pop -> e_one expf tau tau' p dr pop = Some (pop', (x, s)) ->
  Forall mem_ok pop' /\ length pop' = length pop /\ p1_individual p (x, s).
Proof.
  intros F H. unfold e_one in H. cbv zeta in H. destruct (Qltb (od_rn dr) (p1_cxpb p)).
  - destruct (length pop <? 2); [discriminate|].
    apply bind_Some in H. destruct H as (m1 & E1 & H). apply bind_Some in H. destruct H as (m2 & E2 & H).
    apply bind_Some in H. destruct H as ([[[c1 c2] t1] t2] & Ec & H).
    pose proof (proj1 (Forall_forall _ _) F m1 (nth_error_In _ _ E1)) as (G1 & G2 & G3).
    pose proof (proj1 (Forall_forall _ _) F m2 (nth_error_In _ _ E2)) as (K1 & K2 & K3). simpl in G1, G2, G3, K1, K2, K3.
    pose proof (feasible_length _ _ G1) as L1. pose proof (feasible_length _ _ K1) as L2.
    destruct (two_point (od_r1 dr) (od_r2 dr) _ _ _ _ _ D2 L1 L2 G2 K2) as (a & b & c1' & c2' & t1' & t2' & Ec' & _ & _ & _ & X1 & X2).
    rewrite Ec in Ec'. injection Ec' as -> -> -> ->. injection H as <- <- <-. split; auto. split; auto. split; [|split].
    + cbn [fst]. apply es_discrete_feasible; auto. rewrite dims_bounds_eq. apply clip_length; auto. rewrite (proj1 X1). congruence.
    + cbn [snd]. rewrite (proj1 X2). auto.
    + cbn [snd]. eapply strat_exchanged; eauto.
  - destruct (Qltb (od_rn dr) (p1_cxpb p + p1_mutpb p)).
    + apply bind_Some in H. destruct H as (a & E & H). apply bind_Some in H. destruct H as ([v t] & E2 & H).
      injection H as <- <- <-. apply e_mut_ok in E2. auto.
    + apply bind_Some in H. destruct H as (a & E & H). injection H as <- <- <-.
      apply choice_In in E. pose proof (proj1 (Forall_forall _ _) F a E) as (G1 & G2 & G3). simpl in G1, G2, G3.
      assert (X : feasible (p1_dims p) (es_ensure_discrete (p1_dims p) (m_ind a))).
      { apply es_discrete_feasible; auto. apply feasible_length; auto. }
      split; [|split; [apply length_set_nth|split; auto]]. apply Forall_set_nth; auto. split; auto.
Qed.
Lemma e_one_total dr pop : (forall q, 0 < expf q)%Q -> 2 <= length pop -> Forall mem_ok pop ->
  exists pop' x s, e_one expf tau tau' p dr pop = Some (pop', (x, s)).
Proof.
  intros He Hn F. unfold e_one. cbv zeta. assert (Hne : pop <> []) by (intros ->; simpl in Hn; lia).
  destruct (Qltb (od_rn dr) (p1_cxpb p)).
  - destruct (Nat.ltb_spec (length pop) 2); [lia|].
    pose proof (Nat.mod_upper_bound (od_i dr) (length pop) ltac:(lia)) as B1.
    pose proof (Nat.mod_upper_bound (od_j dr) (length pop - 1) ltac:(lia)) as B2.
    destruct (nth_error pop (od_i dr mod length pop)) as [m1|] eqn:E1; [|apply nth_error_None in E1; lia].
    set (b := if od_j dr mod (length pop - 1) <? od_i dr mod length pop then _ else _).
    assert (B3 : b < length pop) by (unfold b; destruct (Nat.ltb_spec (od_j dr mod (length pop - 1)) (od_i dr mod length pop)); lia).
    destruct (nth_error pop b) as [m2|] eqn:E2; [|apply nth_error_None in E2; lia].
    pose proof (proj1 (Forall_forall _ _) F m1 (nth_error_In _ _ E1)) as (G1 & G2 & G3).
    pose proof (proj1 (Forall_forall _ _) F m2 (nth_error_In _ _ E2)) as (K1 & K2 & K3). simpl in G1, G2, G3, K1, K2, K3.
    pose proof (feasible_length _ _ G1) as L1. pose proof (feasible_length _ _ K1) as L2. cbn [bind].
    destruct (two_point (od_r1 dr) (od_r2 dr) _ _ _ _ _ D2 L1 L2 G2 K2) as (x & y & c1' & c2' & t1' & t2' & -> & _). cbn [bind]. eauto.
  - destruct (choice_total pop (od_i dr) Hne) as [a Ea]. rewrite Ea. cbn [bind].
    destruct (Qltb _ _); [|eauto].
    pose proof (proj1 (Forall_forall _ _) F a (choice_In _ _ _ Ea)) as G.
    destruct (e_mut_total (od_mut dr) (m_ind a) (m_strat a) He G) as (v & s & ->). cbn [bind]. eauto.
Qed.

Lemma e_loop_ok drs : forall todo k pop os, Forall mem_ok pop -> e_loop expf tau tau' p drs k todo pop = Some os ->
  length os = todo /\ Forall (p1_individual p) os.
Proof.
  induction todo as [|t IH]; intros k pop os F H; cbn [e_loop] in H.
  - inversion H; subst. auto.
  - apply bind_Some in H. destruct H as ([pop' [x s]] & E & H). apply bind_Some in H. destruct H as (os' & E2 & H). inversion H; subst.
    apply e_one_ok in E; auto. destruct E as (P1 & P2 & P3). destruct (IH _ _ _ P1 E2) as [I1 I2]. simpl. auto.
Qed.
Lemma e_loop_total drs : (forall q, 0 < expf q)%Q -> forall todo k pop, 2 <= length pop -> Forall mem_ok pop ->
  exists os, e_loop expf tau tau' p drs k todo pop = Some os.
Proof.
  intros He. induction todo as [|t IH]; intros k pop Hn F; cbn [e_loop]; eauto.
  destruct (e_one_total (drs k) pop He Hn F) as (pop' & x & s & E). rewrite E. cbn [bind].
  apply e_one_ok in E; auto. destruct E as (P1 & P2 & _).
  destruct (IH (S k) pop' ltac:(lia) P1) as (os & ->). cbn [bind]. eauto.
Qed.

(** One ES generation: survivors and evaluated points. *)
Lemma es_mod_ok drs pop es s1 : Forall mem_ok pop -> p1_mu p <= p1_npop p -> es_mod expf tau tau' m fit p drs pop = Some (es, s1) ->
  length s1 = p1_npop p /\ Forall (feasible (p1_dims p)) s1 /\ length es = p1_mu p /\ Forall mem_ok es /\
  Forall (fun a => In (m_ind a) s1 /\ m_fit a = p1_score m fit (m_ind a)) es /\
  (1 <= p1_mu p -> forall x, In x s1 -> exists a, In a es /\ (p1_score m fit x <= m_fit a)%Q).
Proof.
  intros F M H. unfold es_mod in H. apply bind_Some in H. destruct H as (os & E & H). inversion H; subst. clear H.
  apply e_loop_ok in E; auto. destruct E as [E1 E2]. rewrite map_length. split; auto.
  assert (G : Forall (fun a => mem_ok a /\ In (m_ind a) (map fst os) /\ m_fit a = p1_score m fit (m_ind a)) (map (e_evaluate m fit p) os)).
  { apply Forall_forall. intros a Ha. apply in_map_iff in Ha. destruct Ha as (o & <- & Ho).
    rewrite Forall_forall in E2. destruct (E2 o Ho) as (O1 & O2 & O3). unfold e_evaluate. cbn [m_ind m_fit]. split.
    - split; [exact O1|]. cbn [m_strat m_ind snd]. split; [rewrite map_length; auto|]. apply clip_strat.
    - split; auto. apply in_map; auto. }
  split. { rewrite Forall_map. eapply Forall_impl; [|exact E2]. intros o [O _]. exact O. }
  split. { rewrite select_length, map_length. lia. }
  pose proof (select_Forall _ _ (p1_mu p) G) as G'.
  split. { eapply Forall_impl; [|exact G']. intros a (A & _). exact A. }
  split. { eapply Forall_impl; [|exact G']. intros a (_ & A). exact A. }
  intros K x Hx. apply in_map_iff in Hx. destruct Hx as (o & <- & Ho).
  destruct (select_dominates m_fit (map (e_evaluate m fit p) os) (p1_mu p) (e_evaluate m fit p o) K) as (b & B1 & B2); [apply in_map; auto|].
  exists b. split; auto.
Qed.
Lemma es_mod_total drs pop : (forall q, 0 < expf q)%Q -> 2 <= length pop -> Forall mem_ok pop ->
  exists es s1, es_mod expf tau tau' m fit p drs pop = Some (es, s1).
Proof.
  intros He Hn F. unfold es_mod. destruct (e_loop_total drs He (p1_npop p) 0 pop Hn F) as (os & ->). cbn [bind]. eauto.
Qed.
End ES.
