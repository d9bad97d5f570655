(** PESA: findings. *)
From Coq Require Import List Arith ZArith QArith Bool Lia Lqa Permutation.
From Verif Require Import Base BaseFacts Space_Model Space_Spec Space_Facts ER_Model Opt_Model Opt_Spec Opt_Facts Opt_Facts2 ES_Model ES_Spec ES_Proofs
  PSO_Model SA_Model SA_Spec P2_Model P1_Model P1_Spec P1_ES P1_SA P1_PSO P1_Proofs P1_Final P1_Demo.
Import ListNotations.
Open Scope nat_scope.

Lemma p1_default expf tau tau' pwf m fit p fuel ngen init drs r : p1_ready p ngen init -> p1_draws_ok drs ->
  p1_evolute expf tau tau' pwf m fit p fuel None ngen drs init = Some r ->
  length init + ngen * p1_survivors p <= 3 * (ngen * p1_npop p) + 1 ->
  never_worse m (o_hist r) /\ best_of m fit (o_seen r) (o_x r) (o_y r).
Proof.
  intros RD DR E H. destruct (p1_best expf tau tau' pwf m fit p fuel ngen init None drs RD r DR E) as (_ & A & B); auto. unfold p1_size. lia.
Qed.
Lemma p1_alphas expf tau tau' pwf m fit p fuel ngen init attr drs r : p1_ready p ngen init -> p1_draws_ok drs ->
  p1_evolute expf tau tau' pwf m fit p fuel attr ngen drs init = Some r ->
  length (o_alphas r) = ngen /\ nth_error (o_alphas r) 0 = Some (p1_alpha0 p) /\
  forall i a, nth_error (o_alphas r) (S i) = Some a ->
    (a == p1_alpha0 p + (p1_alpha1 p - p1_alpha0 p) * inject_Z (Z.of_nat (1 + S i * p1_npop p)) / inject_Z (Z.of_nat (ngen * p1_npop p)))%Q.
Proof.
  intros RD DR E. destruct (p1_schedules expf tau tau' pwf m fit p fuel ngen init attr drs RD r DR E) as (A & _ & B & C & _). auto.
Qed.
(** ** Inertia weights. *)
Lemma weights expf tau tau' pwf m fit p fuel ngen init attr drs r : p1_ready p ngen init -> p1_draws_ok drs ->
  p1_evolute expf tau tau' pwf m fit p fuel attr ngen drs init = Some r -> p1_mech p = Timew ->
  nth_error (o_ws r) 0 = Some (9#10)%Q /\
  (3 < p1_ncores p -> Forall (fun w => w = (9#10)%Q) (o_ws r)) /\
  (p1_ncores p <= 3 -> forall i w, nth_error (o_ws r) (S i) = Some w ->
     (w == (9#10) - (1#2) * inject_Z (Z.of_nat (1 + i * p1_npop p)) / inject_Z (Z.of_nat (ngen * p1_npop p)))%Q).
Proof.
  intros RD DR E M. destruct (p1_schedules expf tau tau' pwf m fit p fuel ngen init attr drs RD r DR E) as (_ & L & _ & _ & H).
  split; [|split].
  - destruct (nth_error (o_ws r) 0) as [w|] eqn:E0; [rewrite (H 0 w E0); reflexivity|].
    apply nth_error_None in E0. pose proof (ry_gens _ _ _ RD). lia.
  - intros C. apply Forall_forall. intros w Hw. apply In_nth_error in Hw. destruct Hw as (i & Hi). rewrite (H i w Hi).
    unfold w1_at. rewrite M. unfold p1_proc. rewrite (proj2 (Nat.ltb_lt _ _) C). destruct i; auto.
  - intros C i w Hi. rewrite (H _ w Hi). unfold w1_at. rewrite M. unfold p1_proc.
    assert (3 <? p1_ncores p = false) as -> by (apply Nat.ltb_ge; auto).
    pose proof (steps_pos p ngen init RD). field. lra.
Qed.

(** ** 'globw' with a best warm-up value of zero. *)
Lemma globw_raises expf tau tau' pwf m fit p fuel ngen init attr drs x : p1_ready p ngen init -> p1_mech p = Globw ->
  best_of m fit (map fst init) x 0 -> p1_evolute expf tau tau' pwf m fit p fuel attr ngen drs init = None.
Proof.
  intros RD M (B1 & B2 & B3). unfold p1_evolute.
  destruct (p1_start_ok m fit p ngen init attr RD) as (st & E & I & _). rewrite E. cbn [bind].
  destruct (p1_start_best m fit p ngen init attr RD st E) as (_ & _ & _ & (C1 & C2 & C3)).
  assert (Z : (t_fit st == 0)%Q).
  { pose proof (C3 x B1) as U. pose proof (B3 _ C1) as V. rewrite <- C2 in V.
    assert (as_max m (t_fit st) == 0)%Q by (destruct m; cbn [as_good] in U, V; lra). destruct m; simpl in *; lra. }
  destruct ngen as [|n]; [pose proof (ry_gens _ _ _ RD); lia|]. cbn [gens].
  assert (p1_gen expf tau tau' pwf m fit p fuel (S n * p1_npop p) drs 0 st = None) as ->; [|reflexivity].
  unfold p1_gen. cbv zeta. destruct (es_mod _ _ _ _ _ _ _ _) as [[es s1]|]; [|reflexivity]. cbn [bind].
  destruct (sa_mod _ _ _ _ _ _ _ _ _ _) as [[mem1 cs]|]; [|reflexivity]. cbn [bind].
  assert (pso_mod expf m fit p (t_step st) (S n * p1_npop p) (e_pso (drs 0)) (t_w st) (t_pos st) (t_fit st) (t_swarm st) = None) as ->; [|reflexivity].
  unfold pso_mod. destruct (negb _); [reflexivity|].
  pose proof (iv_swarm2 _ _ _ _ _ _ _ I) as L. pose proof (ry_npop _ _ _ RD) as N. destruct (t_swarm st) as [|a sw]; [simpl in L; lia|].
  cbn [traverse]. assert (q_move expf p (t_w st) (t_pos st) (t_fit st) (e_pso (drs 0)) 0 a = None) as ->; [|reflexivity].
  unfold q_move. pose proof (ry_two _ _ _ RD) as D. destruct (p1_dims p) as [|d ds]; [simpl in D; lia|]. cbn [q_coords].
  destruct (q_pos a); [reflexivity|]. destruct (q_vel a); [reflexivity|]. destruct (q_lpos a); [reflexivity|]. destruct (t_pos st); [reflexivity|].
  unfold q_coord. cbv zeta. rewrite M. rewrite (proj2 (Qeq_bool_iff _ _) Z). reflexivity.
Qed.

(** ** One parameter: crossover raises. *)
Lemma e_one_short expf tau tau' p dr pop : wf_dims (p1_dims p) -> Forall (fun a => length (m_ind a) = 1) pop -> length (p1_dims p) = 1 ->
  match e_one expf tau tau' p dr pop with
  | None => True
  | Some (pop', _) => Forall (fun a => length (m_ind a) = 1) pop' /\ ~ (od_rn dr < p1_cxpb p)%Q
  end.
Proof.
  intros W F D. unfold e_one. cbv zeta. destruct (Qltb (od_rn dr) (p1_cxpb p)) eqn:C.
  - destruct (length pop <? 2); [exact I|].
    destruct (nth_error pop (od_i dr mod length pop)) as [m1|] eqn:E1; [|exact I]. cbn [bind].
    match goal with |- context [bind (nth_error pop ?k) _] => destruct (nth_error pop k) as [m2|]; [|exact I] end. cbn [bind]. rewrite two_point_short; [exact I|].
    rewrite Forall_forall in F. rewrite (F m1); [lia|]. eapply nth_error_In; eauto.
  - qprop. assert (N : ~ (od_rn dr < p1_cxpb p)%Q) by lra.
    destruct (choice pop (od_i dr)) as [a|] eqn:E; [|destruct (Qltb _ _); exact I]. destruct (Qltb _ _); cbn [bind].
    + destruct (e_mut _ _ _ _ _ _ _); [|exact I]. cbn [bind]. split; auto.
    + split; auto. apply Forall_set_nth; auto. cbn [m_ind]. apply choice_In in E. rewrite Forall_forall in F. specialize (F a E).
      rewrite (feasible_length _ _ (es_discrete_feasible _ _ W ltac:(rewrite D; exact F))). auto.
Qed.
Lemma e_loop_short expf tau tau' p drs : wf_dims (p1_dims p) -> length (p1_dims p) = 1 -> forall todo k pop, Forall (fun a => length (m_ind a) = 1) pop ->
  (exists i, k <= i < k + todo /\ (od_rn (drs i) < p1_cxpb p)%Q) -> e_loop expf tau tau' p drs k todo pop = None.
Proof.
  intros W D. induction todo as [|t IH]; intros k pop F (i & Hi & Hc); [lia|]. cbn [e_loop].
  pose proof (e_one_short expf tau tau' p (drs k) pop W F D) as H. destruct (e_one expf tau tau' p (drs k) pop) as [[pop' o]|]; [|reflexivity].
  cbn [bind]. destruct H as (F' & N). destruct (Nat.eq_dec i k) as [->|Ne]; [contradiction|].
  rewrite (IH (S k) pop' F'); [reflexivity|]. exists i. split; [lia|auto].
Qed.
Lemma one_parameter_raises expf tau tau' pwf m fit p fuel ngen init attr drs i : wf_dims (p1_dims p) -> length (p1_dims p) = 1 -> 1 <= ngen ->
  Forall (fun o => feasible (p1_dims p) (fst o)) init -> i < p1_npop p -> (od_rn (e_es (drs 0%nat) i) < p1_cxpb p)%Q ->
  p1_evolute expf tau tau' pwf m fit p fuel attr ngen drs init = None.
Proof.
  intros W D G F Hi Hc. unfold p1_evolute. destruct (p1_start m fit p attr ngen init) as [st|] eqn:E; [|reflexivity]. cbn [bind].
  destruct ngen as [|n]; [lia|]. cbn [gens].
  assert (p1_gen expf tau tau' pwf m fit p fuel (S n * p1_npop p) drs 0 st = None) as ->; [|reflexivity].
  unfold p1_gen. cbv zeta. unfold es_mod. rewrite e_loop_short; auto; [|exists i; split; [lia|auto]].
  unfold p1_start in E. destruct (_ && _); [|discriminate]. cbv zeta in E.
  apply bind_Some in E. destruct E as (mem & _ & E). apply bind_Some in E. destruct E as (top & _ & E). injection E as <-. cbn [t_pop].
  apply Forall_forall. intros a Ha. apply in_firstn in Ha. apply in_sort_desc in Ha. apply in_map_iff in Ha. destruct Ha as (o & <- & Ho). cbn [m_ind].
  rewrite Forall_forall in F. rewrite <- D. apply feasible_length. auto.
Qed.

(** ** Two parameters: ES creates no new value of an integer parameter. *)
Section Two.
Context (expf : Q -> Q) (tau tau' : nat -> Q) (p : p1_par).
Context (W : wf_dims (p1_dims p)) (D : length (p1_dims p) = 2).

Lemma smin_half : (p1_smax - p1_smin p == 0)%Q.
Proof. unfold p1_smin, p1_smax. rewrite D. reflexivity. Qed.

Notation from := (known_ints (p1_dims p)).

Lemma feasible_nth ds x i d v : feasible ds x -> nth_error ds i = Some d -> nth_error x i = Some v ->
  (d_lo d <= v)%Q /\ (v <= d_hi d)%Q /\ (d_int d = true -> is_int v).
Proof.
  intros F. revert i. induction F as [|d0 v0 ds x H F IH]; intros [|i] Hd Hv; try discriminate; cbn [nth_error] in *.
  - injection Hd as <-. injection Hv as <-. exact H.
  - eapply IH; eauto.
Qed.
Lemma clip_nth ds : wf_dims ds -> forall x i d v, nth_error ds i = Some d -> nth_error (clip_vec (dim_bounds ds) x) i = Some v -> 
  exists w, nth_error x i = Some w /\ ((d_lo d <= w)%Q -> (w <= d_hi d)%Q -> v = w).
Proof.
  intros W0. induction W0 as [|d0 ds (H0 & _) W0 IH]; intros [|a x] [|i] d v Hd Hv; try discriminate.
  - unfold dim_bounds in Hv. cbn [map] in Hv. rewrite clip_vec_cons in Hv by auto. cbn [nth_error] in *.
    injection Hd as <-. injection Hv as <-. exists a. split; auto. intros. apply clip1_id; auto.
  - unfold dim_bounds in Hv. cbn [map] in Hv. rewrite clip_vec_cons in Hv by auto. cbn [nth_error] in *.
    eapply IH; eauto.
Qed.
Lemma discrete_nth : forall ds x i d v, wf_dims ds -> nth_error ds i = Some d -> d_int d = true -> nth_error (es_ensure_discrete ds x) i = Some v ->
  exists w, nth_error x i = Some w /\ ((d_lo d <= w)%Q -> (w <= d_hi d)%Q -> is_int w -> v == w)%Q.
Proof.
  intros ds x i d v W0 Hd Hi Hv. unfold es_ensure_discrete in Hv. rewrite dims_bounds_eq in Hv.
  assert (G : forall ds c i v, nth_error ds i = Some d -> nth_error (map2 (fun d x => if d_int d then inject_Z (trunc x) else x) ds c) i = Some v ->
    exists u, nth_error c i = Some u /\ v = inject_Z (trunc u)).
  { clear - Hi. induction ds as [|d0 ds IH]; intros [|a c] [|i] v Hd Hv; try discriminate; cbn [map2 nth_error] in *.
    - injection Hd as ->. rewrite Hi in Hv. injection Hv as <-. eauto.
    - eapply IH; eauto. }
  destruct (G _ _ _ _ Hd Hv) as (u & Hu & ->). destruct (clip_nth _ W0 _ _ _ _ Hd Hu) as (w & Hw & Ew). exists w. split; auto.
  intros H1 H2 (z & Ez). specialize (Ew H1 H2).
  subst u. apply is_int_trunc. exists z. exact Ez.
Qed.

Lemma e_coords_nth n dr : forall ds i0 x st v s, e_coords expf tau tau' p n dr i0 ds x st = Some (v, s) ->
  forall i d y, nth_error ds i = Some d -> d_int d = true -> nth_error v i = Some y -> exists w, nth_error x i = Some w /\ y = inject_Z (trunc w).
Proof.
  induction ds as [|d0 ds IH]; intros i0 x st v s H i d y Hd Hi Hv; [destruct i; discriminate|]. cbn [e_coords] in H.
  destruct x as [|a x]; [discriminate|]. destruct st as [|b st]; [discriminate|].
  apply bind_Some in H. destruct H as ([y0 t0] & E1 & H). apply bind_Some in H. destruct H as ([ys ts] & E2 & H). injection H as <- <-.
  destruct i as [|i]; cbn [nth_error] in *; [|eapply IH; eauto].
  injection Hd as ->. injection Hv as ->. unfold e_coord in E1. rewrite Hi, (proj2 (Qeq_bool_iff _ _) smin_half) in E1. cbn [andb] in E1.
  injection E1 as <- <-. eauto.
Qed.

Lemma e_one_from dr pop pop' x s : Forall (mem_ok p) pop -> e_one expf tau tau' p dr pop = Some (pop', (x, s)) ->
  from (map m_ind pop) x /\ forall a, In a pop' -> from (map m_ind pop) (m_ind a).
Proof.
  intros F H.
  assert (SELF : forall a, In a pop -> from (map m_ind pop) (m_ind a)).
  { intros a Ha i d v _ _ Hv. exists (m_ind a), v. split; [apply in_map; auto|]. split; [auto|reflexivity]. }
  assert (IN : forall a, In a pop -> forall i d w, nth_error (p1_dims p) i = Some d -> d_int d = true -> nth_error (m_ind a) i = Some w -> 
    (d_lo d <= w)%Q /\ (w <= d_hi d)%Q /\ is_int w).
  { intros a Ha i d w Hd Hi Hw. rewrite Forall_forall in F. destruct (F a Ha) as (G & _). cbn [fst] in G.
    destruct (feasible_nth _ _ _ _ _ G Hd Hw) as (A & B & C). auto. }
  unfold e_one in H. cbv zeta in H. destruct (Qltb (od_rn dr) (p1_cxpb p)).
  - destruct (length pop <? 2); [discriminate|].
    apply bind_Some in H. destruct H as (m1 & E1 & H). apply bind_Some in H. destruct H as (m2 & E2 & H).
    apply bind_Some in H. destruct H as ([[[c1 c2] t1] t2] & Ec & H). apply nth_error_In in E1, E2.
    pose proof (proj1 (Forall_forall _ _) F m1 E1) as (G1 & G2 & G3).
    pose proof (proj1 (Forall_forall _ _) F m2 E2) as (K1 & K2 & K3). cbn [fst snd] in G1, G2, G3, K1, K2, K3.
    pose proof (feasible_length _ _ G1) as L1. pose proof (feasible_length _ _ K1) as L2.
    destruct (two_point (od_r1 dr) (od_r2 dr) _ _ _ _ (length (p1_dims p)) ltac:(lia) L1 L2 G2 K2) as (a & b & c1' & c2' & t1' & t2' & Ec' & _ & _ & _ & (X1 & X2 & X3) & _).
    rewrite Ec in Ec'. injection Ec' as <- <- <- <-. injection H as <- <- <-. split; auto.
    intros i d v Hd Hi Hv. destruct (discrete_nth _ _ _ _ _ W Hd Hi Hv) as (w & Hw & Ew).
    rewrite dims_bounds_eq in Hw. destruct (clip_nth _ W _ _ _ _ Hd Hw) as (u & Hu & Eu).
    destruct (X3 i) as (Y1 & Y2).
    assert (exists q, In q pop /\ nth_error (m_ind q) i = Some u) as (q & Hq & Eq).
    { destruct (le_lt_dec a i) as [C1|C1], (le_lt_dec b i) as [C2|C2].
      - exists m1. split; auto. rewrite <- (proj1 (Y2 ltac:(lia))). auto.
      - exists m2. split; auto. rewrite <- (proj1 (Y1 ltac:(lia))). auto.
      - exists m1. split; auto. rewrite <- (proj1 (Y2 ltac:(lia))). auto.
      - exists m1. split; auto. rewrite <- (proj1 (Y2 ltac:(lia))). auto. }
    destruct (IN q Hq i d u Hd Hi Eq) as (Q1 & Q2 & Q3). specialize (Eu Q1 Q2). subst w.
    exists (m_ind q), u. split; [apply in_map; auto|]. split; auto.
  - destruct (Qltb (od_rn dr) (p1_cxpb p + p1_mutpb p)).
    + apply bind_Some in H. destruct H as (a & E & H). apply bind_Some in H. destruct H as ([v t] & E2 & H).
      injection H as <- <- <-. split; auto. apply choice_In in E.
      unfold e_mut in E2. rewrite dims_bounds_eq in E2. apply bind_Some in E2. destruct E2 as ([v0 s0] & E3 & E2). injection E2 as <- <-.
      intros i d y Hd Hi Hy. destruct (clip_nth _ W _ _ _ _ Hd Hy) as (u & Hu & Eu).
      destruct (e_coords_nth _ _ _ _ _ _ _ _ E3 i d u Hd Hi Hu) as (w & Hw & ->). destruct (clip_nth _ W _ _ _ _ Hd Hw) as (q & Hq & Eq).
      destruct (IN a E i d q Hd Hi Hq) as (Q1 & Q2 & Q3). specialize (Eq Q1 Q2). subst w.
      apply is_int_trunc in Q3.
      exists (m_ind a), q. split; [apply in_map; auto|]. split; auto. rewrite Eu by (rewrite Q3; auto). exact Q3.
    + apply bind_Some in H. destruct H as (a & E & H). injection H as <- <- <-. apply choice_In in E.
      assert (X : from (map m_ind pop) (es_ensure_discrete (p1_dims p) (m_ind a))).
      { intros i d v Hd Hi Hv. destruct (discrete_nth _ _ _ _ _ W Hd Hi Hv) as (w & Hw & Ew).
        destruct (IN a E i d w Hd Hi Hw) as (Q1 & Q2 & Q3). exists (m_ind a), w. split; [apply in_map; auto|]. split; auto. }
      split; auto. intros b Hb. apply P2_Mem.set_nth_in in Hb. destruct Hb as [->|Hb]; auto.
Qed.

Lemma from_trans src src' x : (forall y, In y src -> from src' y) -> from src x -> from src' x.
Proof.
  intros H F i d v Hd Hi Hv. destruct (F i d v Hd Hi Hv) as (y & w & Hy & Hw & E).
  destruct (H y Hy i d w Hd Hi Hw) as (y' & w' & Hy' & Hw' & E'). exists y', w'. split; auto. split; auto. rewrite E. exact E'.
Qed.
Lemma e_loop_from drs : forall todo k pop os, Forall (mem_ok p) pop -> e_loop expf tau tau' p drs k todo pop = Some os ->
  forall o, In o os -> from (map m_ind pop) (fst o).
Proof.
  induction todo as [|t IH]; intros k pop os F H o Ho; cbn [e_loop] in H; [injection H as <-; destruct Ho|].
  apply bind_Some in H. destruct H as ([pop' [x s]] & E & H). apply bind_Some in H. destruct H as (os' & E2 & H). injection H as <-.
  destruct (e_one_from _ _ _ _ _ F E) as (A & B). destruct (e_one_ok expf tau tau' p W ltac:(lia) _ _ _ _ _ F E) as (F' & _).
  destruct Ho as [<-|Ho]; [exact A|]. eapply from_trans; [|eapply IH; eauto].
  intros y Hy. apply in_map_iff in Hy. destruct Hy as (a & <- & Ha). auto.
Qed.
Lemma es_mod_from m fit drs pop es s1 : Forall (mem_ok p) pop -> es_mod expf tau tau' m fit p drs pop = Some (es, s1) ->
  forall x, In x s1 -> from (map m_ind pop) x.
Proof.
  intros F H x Hx. unfold es_mod in H. apply bind_Some in H. destruct H as (os & E & H). injection H as <- <-.
  apply in_map_iff in Hx. destruct Hx as (o & <- & Ho). eapply e_loop_from; eauto.
Qed.
End Two.

(** ** Samples lost. *)
Lemma best_18 : forall pts, In (9, 9)%Q pts -> In [9; 9]%Q (map fst (w_init pts)).
Proof. intros pts H. unfold w_init. rewrite map_map. apply in_map_iff. exists (9, 9)%Q. split; auto. Qed.
Lemma ready_few n : 1 <= n -> p1_ready (w_par Timew 1 2) n (w_init (firstn 2 w_pts)).
Proof. intros H. apply w_ready; auto. intros x Hx. simpl in Hx. simpl. tauto. Qed.
Lemma ready_many : p1_ready (w_par Timew 1 2) 2 (w_init w_pts).
Proof. apply w_ready; auto; [simpl; lia|apply incl_refl]. Qed.
Lemma not_never m a b : ~ as_good m b a -> ~ never_worse m [a; b].
Proof. intros N H. apply N. apply (H 0 1 a b); auto. Qed.

Lemma default_loses : exists p init drs r z, p1_ready p 2 init /\ p1_draws_ok drs /\ p1_mech p = Timew /\
  p1_evolute w_exp w_tau w_tau w_pw Mmax w_fit p 3 None 2 drs init = Some r /\
  In z (map fst init) /\ (o_y r < w_fit z)%Q /\ ~ never_worse Mmax (o_hist r).
Proof.
  destruct w_run_many as (r & E & B). exists (w_par Timew 1 2), (w_init w_pts), w_draws, r, [9; 9]%Q.
  split; [apply ready_many|]. split; [apply w_draws_ok|]. split; [reflexivity|]. split; [exact E|]. split; [apply best_18; simpl; auto|].
  injection B as _ Y H _. rewrite Y, H. split; [reflexivity|]. apply not_never. simpl. lra.
Qed.
Lemma one_loses : exists p init drs r z, p1_ready p 2 init /\ p1_draws_ok drs /\ p1_mech p = Timew /\
  p1_evolute w_exp w_tau w_tau w_pw Mmax w_fit p 3 (Some 1) 2 drs init = Some r /\
  In z (map fst init) /\ Forall (fun v => v < w_fit z)%Q (o_hist r) /\ (o_y r < w_fit z)%Q.
Proof.
  destruct w_run_one as (r & E & B). exists (w_par Timew 1 2), (w_init w_pts), w_draws, r, [9; 9]%Q.
  split; [apply ready_many|]. split; [apply w_draws_ok|]. split; [reflexivity|]. split; [exact E|]. split; [apply best_18; simpl; auto|].
  injection B as _ Y H _. rewrite Y, H. split; [|reflexivity]. constructor; [reflexivity|]. constructor; [reflexivity|constructor].
Qed.
Lemma second_loses : exists p init drs a b c, p1_ready p 1 init /\ p1_ready p 2 init /\ p1_draws_ok drs /\ p1_mech p = Timew /\
  p1_twice w_exp w_tau w_tau w_pw Mmax w_fit p 3 None 1 drs init 2 drs init = Some (a, b) /\
  p1_evolute w_exp w_tau w_tau w_pw Mmax w_fit p 3 None 2 drs init = Some c /\ (o_y b < o_y c)%Q /\ ~ never_worse Mmax (o_hist b).
Proof.
  destruct w_run_first as (a & E1 & B1). destruct w_run_again as (b & E2 & B2). destruct w_run_few as (c & E3 & B3).
  exists (w_par Timew 1 2), (w_init (firstn 2 w_pts)), w_draws, a, b, c.
  split; [apply ready_few; lia|]. split; [apply ready_few; lia|]. split; [apply w_draws_ok|]. split; [reflexivity|].
  split; [unfold p1_twice; rewrite E1; cbn [bind]; rewrite B1, E2; reflexivity|]. split; [exact E3|].
  injection B2 as _ Y2 H2 _. injection B3 as _ Y3 _ _. rewrite Y2, Y3, H2. split; [reflexivity|]. apply not_never. simpl. lra.
Qed.

(** ** Cases. *)
Lemma case_few : p1_ready (w_par Timew 1 2) 2 (w_init (firstn 2 w_pts)) /\ p1_draws_ok w_draws /\ p1_varied (w_par Timew 1 2) 3 w_draws /\
  (forall q, 0 < w_exp q)%Q /\ p1_mech (w_par Timew 1 2) <> Globw /\
  length (w_init (firstn 2 w_pts)) + 2 * p1_survivors (w_par Timew 1 2) <= p1_size None (2 * p1_npop (w_par Timew 1 2)).
Proof.
  split; [apply ready_few; lia|]. split; [apply w_draws_ok|]. split; [apply w_varied|]. split; [apply w_exp_pos|]. split; [discriminate|]. vm_compute. lia.
Qed.
Lemma case_cores : p1_ready (w_par Timew 6 4) 2 (w_init w_pts) /\ 3 < p1_ncores (w_par Timew 6 4).
Proof. split; [|simpl; lia]. apply w_ready; auto; try (simpl; lia). apply incl_refl. Qed.
Lemma case_globw : p1_ready (w_par Globw 1 2) 2 (w_init w_pts) /\ best_of Mmin (fun _ => 0%Q) (map fst (w_init w_pts)) [9; 9]%Q 0%Q.
Proof.
  split; [apply w_ready; auto; [simpl; lia|apply incl_refl]|]. split; [apply best_18; simpl; auto|]. split; [reflexivity|]. intros. simpl. lra.
Qed.
Definition w_line : p1_par := P1Par [Dim false 0 1] 2 None (1#10) 1 0 (6#10) (15#100) (205#100) (205#100) Timew 0 (fun _ => 1%Q) 1.
Lemma case_line : wf_dims (p1_dims w_line) /\ length (p1_dims w_line) = 1 /\ Forall (fun o : list Q * list Q => feasible (p1_dims w_line) (fst o)) [([1#3], [1#2]); ([2#3], [1#2])]%Q /\
  (od_rn (e_es (w_draws 0) 0) < p1_cxpb w_line)%Q.
Proof.
  split; [|split; [reflexivity|split; [|reflexivity]]].
  - constructor; [|constructor]. split; [simpl; lra|discriminate].
  - constructor; [|constructor; [|constructor]]; (constructor; [|constructor]; simpl; split; [lra|split; [lra|discriminate]]).
Qed.
Lemma case_two : length (p1_dims (w_par Timew 1 2)) = 2 /\ wf_dims (p1_dims (w_par Timew 1 2)) /\
  Forall (fun a => p1_individual (w_par Timew 1 2) (m_ind a, m_strat a)) (map (fun o => Mem (fst o) (snd o) 0%Q) (w_init w_pts)) /\
  exists es s1, es_mod w_exp w_tau w_tau Mmax w_fit (w_par Timew 1 2) (fun _ => w_es) (map (fun o => Mem (fst o) (snd o) 0%Q) (w_init w_pts)) = Some (es, s1) /\ s1 = [[5; 5]; [5; 5]]%Q.
Proof.
  pose proof ready_many as R. split; [reflexivity|]. split; [apply (ry_dims _ _ _ R)|]. split.
  - apply Forall_map. pose proof (ry_init _ _ _ R) as F. eapply Forall_impl; [|exact F]. intros [x s]. auto.
  - destruct (es_mod w_exp w_tau w_tau Mmax w_fit (w_par Timew 1 2) (fun _ => w_es) (map (fun o => Mem (fst o) (snd o) 0%Q) (w_init w_pts))) as [[es s1]|] eqn:E.
    + exists es, s1. split; auto. apply (f_equal (option_map snd)) in E. vm_compute in E. injection E as <-. reflexivity.
    + exfalso. apply (f_equal (option_map snd)) in E. vm_compute in E. discriminate E.
Qed.
