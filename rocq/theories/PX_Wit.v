(** PESAX: findings. *)
From Coq Require Import List Arith ZArith QArith Bool Lia Lqa Permutation.
From Verif Require Import Base BaseFacts Space_Model Space_Spec Space_Facts ER_Model Opt_Model Opt_Spec Opt_Facts Opt_Facts2 ES_Model DE_Model PSO_Model
  P2_Model P2_Spec P1_Model P1_Spec P1_Proofs P1_Final P1_Demo P1_Wit PX_Model PX_Spec PX_Proofs PX_Final PX_Demo.
Import ListNotations.
Open Scope nat_scope.

Lemma px_default expf tau tau' pwf m fit p ngen given init drs r : px_ready p ngen given init -> respects fit -> px_draws_ok drs ->
  px_evolute expf tau tau' pwf m fit p None ngen given drs init = Some r ->
  length init + ngen * px_survivors p <= 3 * (ngen * p1_npop (px_1 p)) + 1 ->
  never_worse m (px_hist r) /\ (forall z, In z (px_seen r) -> as_good m (px_y r) (fit z)).
Proof.
  intros RD RF DR E H. destruct (px_best expf tau tau' pwf m fit p ngen given init None drs RD r RF DR E) as (_ & A & B); auto. unfold p2_size. lia.
Qed.
Lemma px_exponents expf tau tau' pwf m fit p ngen given init attr drs r : px_ready p ngen given init -> respects fit -> px_draws_ok drs ->
  px_evolute expf tau tau' pwf m fit p attr ngen given drs init = Some r ->
  length (px_alphas r) = ngen /\ nth_error (px_alphas r) 0 = Some (p1_alpha0 (px_1 p)) /\
  forall i a, nth_error (px_alphas r) (S i) = Some a ->
    (a == p1_alpha0 (px_1 p) + (p1_alpha1 (px_1 p) - p1_alpha0 (px_1 p)) * inject_Z (Z.of_nat (1 + S i * p1_npop (px_1 p))) / inject_Z (Z.of_nat (ngen * p1_npop (px_1 p))))%Q.
Proof.
  intros RD RF DR E. destruct (px_schedules expf tau tau' pwf m fit p ngen given init attr drs RD r RF DR E) as (A & _ & B & C & _). auto.
Qed.
Lemma px_start_best m fit p ngen given init attr st : px_ready p ngen given init -> px_start m fit p attr ngen given init = Some st ->
  best_points m fit (p1_npop (px_1 p)) (map fst init) (map (fun a => h_get (y_heap st) (xm_ind a)) (y_pop st)) /\
  best_points m fit (p1_npop (px_1 p)) (map fst init) (map (h_get (y_heap st)) (y_de st)) /\
  best_points m fit (p1_npop (px_1 p)) (map fst init) (map (fun a => h_get (y_heap st) (xp_pos a)) (y_swarm st)) /\
  best_points m fit (p1_npop (px_1 p)) (map fst init) (map (fun a => h_get (y_heap st) (xp_lpos a)) (y_swarm st)) /\
  best_of m fit (map fst init) (h_get (y_heap st) (y_lead st)) (as_max m (y_lfit st)).
Proof.
  intros RD E. destruct (px_start_ok m fit p ngen given init attr RD) as (st' & E' & _ & _ & A & B & C & D & F).
  rewrite E in E'. injection E' as <-. rewrite A, B, C, D. pose proof (vecs0_best m fit p ngen given init RD). auto.
Qed.

(** Speeds at the start: a tenth of the position. *)
Lemma map2_vel h (l : list (ref * ref)) (best : list xmem) : length l = length best ->
  map xp_vel (map2 (fun l a => let q := px_particle h (xm_ind a, xm_fit a) in XPar (fst l) (xp_vel q) (xp_fit q) (snd l) (xp_lfit q)) l best)
  = map (map (fun q => (1 # 10) * q)%Q) (map (fun a => h_get h (xm_ind a)) best).
Proof. revert best. induction l as [|x l IH]; intros [|a best] L; try discriminate L; [reflexivity|]. cbn in *. f_equal. apply IH. lia. Qed.
Lemma px_start_speeds m fit p ngen given init attr st : px_ready p ngen given init -> px_start m fit p attr ngen given init = Some st ->
  map xp_vel (y_swarm st) = map (fun a => map (fun q => (1 # 10) * q)%Q (h_get (y_heap st) (xp_pos a))) (y_swarm st).
Proof.
  intros RD E. destruct (px_start_ok m fit p ngen given init attr RD) as (st' & E' & _ & _ & _ & B & _).
  rewrite E in E'. injection E' as <-. rewrite <- (map_map (fun a => h_get (y_heap st) (xp_pos a)) (map (fun q => (1 # 10) * q)%Q)), B. clear B.
  unfold px_start in E. destruct (_ && _); [|discriminate E]. cbv zeta in E. unfold h_new in E. cbn [app] in E. change (@length (list Q) []) with 0 in E. rewrite map_length in E.
  destruct (p2_add _ _ _ _) as [mem|]; [|discriminate E]. cbn [bind] in E. 
  match type of E with context [nth_error ?l 0] => change l with (best0 m fit p init) in E; destruct (nth_error (best0 m fit p init) 0) as [top|]; [|discriminate E] end. cbn [bind] in E. injection E as <-. cbn [y_swarm].
  etransitivity; [apply (map2_vel (map fst init))|reflexivity]. rewrite combine_length, !seq_length, !map_length. lia.
Qed.

(** ** Inertia weights. *)
Lemma px_weights expf tau tau' pwf m fit p ngen given init attr drs r : px_ready p ngen given init -> respects fit -> px_draws_ok drs ->
  px_evolute expf tau tau' pwf m fit p attr ngen given drs init = Some r -> p1_mech (px_1 p) = Timew ->
  nth_error (px_ws r) 0 = Some (9#10)%Q /\
  (3 < p1_ncores (px_1 p) -> Forall (fun w => w = (9#10)%Q) (px_ws r)) /\
  (p1_ncores (px_1 p) <= 3 -> forall i w, nth_error (px_ws r) (S i) = Some w ->
     (w == (9#10) - (1#2) * inject_Z (Z.of_nat (1 + i * p1_npop (px_1 p))) / inject_Z (Z.of_nat (ngen * p1_npop (px_1 p))))%Q).
Proof.
  intros RD RF DR E M. destruct (px_schedules expf tau tau' pwf m fit p ngen given init attr drs RD r RF DR E) as (_ & L & _ & _ & H).
  pose proof (rx_gens _ _ _ _ RD) as G. pose proof (rx_npop _ _ _ _ RD) as N.
  split; [|split].
  - destruct (nth_error (px_ws r) 0) as [w|] eqn:E0; [rewrite (H 0 w E0); reflexivity|]. apply nth_error_None in E0. lia.
  - intros C. apply Forall_forall. intros w Hw. apply In_nth_error in Hw. destruct Hw as (i & Hi). rewrite (H i w Hi).
    unfold w1_at. rewrite M. unfold p1_proc. rewrite (proj2 (Nat.ltb_lt _ _) C). destruct i; auto.
  - intros C i w Hi. rewrite (H _ w Hi). unfold w1_at. rewrite M. unfold p1_proc.
    assert (3 <? p1_ncores (px_1 p) = false) as -> by (apply Nat.ltb_ge; auto).
    assert (SP : (0 < inject_Z (Z.of_nat (ngen * p1_npop (px_1 p))))%Q). { change 0%Q with (inject_Z 0). rewrite <- Zlt_Qlt. nia. }
    field. lra.
Qed.

(** ** 'globw' with a best warm-up value of zero. *)
Lemma px_globw expf tau tau' pwf m fit p ngen given init attr drs x : px_ready p ngen given init -> respects fit -> p1_mech (px_1 p) = Globw ->
  best_of m fit (map fst init) x 0 -> px_evolute expf tau tau' pwf m fit p attr ngen given drs init = None.
Proof.
  intros RD RF M (B1 & B2 & B3). unfold px_evolute.
  destruct (px_start_ok m fit p ngen given init attr RD) as (st & E & I & _ & _ & _ & _ & _ & (C1 & C2 & C3)). rewrite E. cbn [bind].
  assert (Z : (y_lfit st == 0)%Q).
  { pose proof (C3 x B1) as U. pose proof (B3 _ C1) as V. rewrite <- C2 in V.
    assert (as_max m (y_lfit st) == 0)%Q by (destruct m; cbn [as_good] in U, V; lra). destruct m; simpl in *; lra. }
  destruct ngen as [|n]; [pose proof (rx_gens _ _ _ _ RD); lia|]. cbn [gens].
  assert (px_gen expf tau tau' pwf m fit p (S n * p1_npop (px_1 p)) drs 0 st = None) as ->; [|reflexivity].
  unfold px_gen. cbv zeta. destruct (es_mod _ _ _ _ _ _ _ _) as [[es s1]|]; [|reflexivity]. cbn [bind].
  destruct (new_mems (y_heap st) es) as [h1 xes]. destruct (px_de _ _ _ _ _ _ _) as [[[h2 dp] s2]|]; [|reflexivity]. cbn [bind].
  assert (pso_mod expf m fit (px_1 p) (y_step st) (S n * p1_npop (px_1 p)) (x_pso (drs 0)) (y_w st) (h_get h2 (y_lead st)) (y_lfit st) (map (get_par h2) (y_swarm st)) = None) as ->; [|reflexivity].
  unfold pso_mod. destruct (negb _); [reflexivity|].
  pose proof (jx_swarm2 _ _ _ _ _ _ _ I) as L. pose proof (rx_npop _ _ _ _ RD) as N. destruct (y_swarm st) as [|a sw]; [simpl in L; lia|].
  cbn [map traverse]. match goal with |- context [q_move ?e ?q ?w ?x ?v ?d ?i ?b] => assert (q_move e q w x v d i b = None) as -> end; [|reflexivity].
  unfold q_move. pose proof (rx_two _ _ _ _ RD) as D. destruct (p1_dims (px_1 p)) as [|d ds]; [simpl in D; lia|]. cbn [q_coords].
  destruct (q_pos _); [reflexivity|]. destruct (q_vel _); [reflexivity|]. destruct (q_lpos _); [reflexivity|]. destruct (h_get h2 _); [reflexivity|].
  unfold q_coord. cbv zeta. rewrite M. rewrite (proj2 (Qeq_bool_iff _ _) Z). reflexivity.
Qed.

(** ** One parameter: crossover raises. *)
Lemma px_one_parameter expf tau tau' pwf m fit p ngen given init attr drs i :
  wf_dims (p1_dims (px_1 p)) -> length (p1_dims (px_1 p)) = 1 -> 1 <= ngen ->
  Forall (fun o => feasible (p1_dims (px_1 p)) (fst o)) init -> i < p1_npop (px_1 p) -> (od_rn (x_es (drs 0%nat) i) < p1_cxpb (px_1 p))%Q ->
  px_evolute expf tau tau' pwf m fit p attr ngen given drs init = None.
Proof.
  intros W D G F Hi Hc. unfold px_evolute. destruct (px_start m fit p attr ngen given init) as [st|] eqn:E; [|reflexivity]. cbn [bind].
  destruct ngen as [|n]; [lia|]. cbn [gens].
  assert (px_gen expf tau tau' pwf m fit p (S n * p1_npop (px_1 p)) drs 0 st = None) as ->; [|reflexivity].
  unfold px_gen. cbv zeta. unfold es_mod. rewrite e_loop_short; auto; [|exists i; split; [lia|auto]].
  apply Forall_forall. intros a Ha. apply in_map_iff in Ha. destruct Ha as (b & <- & Hb). cbn [get_mem m_ind].
  unfold px_start in E. destruct (_ && _); [|discriminate]. unfold h_new in E. cbn [app] in E. change (@length (list Q) []) with 0 in E. cbv zeta in E.
  apply bind_Some in E. destruct E as (mem & _ & E). apply bind_Some in E. destruct E as (top & _ & E). injection E as <-. cbn [y_heap y_pop] in *.
  rewrite (map_length fst init) in *. set (pp := map2 (fun (r : ref) (o : list Q * list Q) => XMem r (snd o) (px_score m fit (fst o))) (seq 0 (length init)) init) in *. set (h := map fst init) in *.
  set (best := firstn _ (Opt_Model.sort_desc xm_fit pp)) in *. set (v := map (fun a => h_get h (xm_ind a)) best) in *.
  assert (Fv : Forall (fun x => length x = 1) v).
  { apply Forall_forall. intros x Hx. unfold v in Hx. apply in_map_iff in Hx. destruct Hx as (a & <- & Ha). unfold best in Ha. apply in_firstn in Ha. apply in_sort_desc in Ha.
    unfold pp in Ha. apply P2_DE.map2_In in Ha. destruct Ha as (r & o & Hr & _ & ->). cbn [xm_ind]. apply in_seq in Hr. unfold h_get, h.
    rewrite Forall_forall in F. assert (In (nth r (map fst init) []) (map fst init)) by (apply nth_In; rewrite map_length; lia).
    apply in_map_iff in H. destruct H as (o' & <- & Ho'). rewrite <- D. apply feasible_length. auto. }
  assert (Fh : Forall (fun x => length x = 1) (h ++ v)).
  { apply Forall_app. split; auto. apply Forall_forall. intros x Hx. unfold h in Hx. apply in_map_iff in Hx. destruct Hx as (o & <- & Ho).
    rewrite Forall_forall in F. rewrite <- D. apply feasible_length. auto. }
  apply P2_DE.map2_In in Hb. destruct Hb as (r & a & Hr & _ & ->). cbn [xm_ind]. apply in_seq in Hr.
  assert (Lh : length h = length init) by apply map_length. 
  assert (Lr : r < length (h ++ v)) by (rewrite app_length; lia).
  rewrite <- !app_assoc. rewrite (app_assoc h v). rewrite get_app by auto. rewrite Forall_forall in Fh. apply Fh. apply nth_In. auto.
Qed.

(** ** The number of random warm-up points. *)
Lemma px_warmup expf tau tau' pwf m fit p ngen init attr drs : length init = p1_npop (px_1 p) ->
  px_evolute expf tau tau' pwf m fit p attr ngen false drs init = None.
Proof. intros H. unfold px_evolute, px_start. rewrite H, Nat.ltb_irrefl, andb_false_r. reflexivity. Qed.

(** ** Samples lost. *)
Lemma x_few n : 1 <= n -> px_ready (x_par Timew 1) n false (w_init (firstn 6 x_pts)).
Proof. intros H. apply x_ready; auto. intros a Ha. rewrite <- (firstn_skipn 6 x_pts). apply in_app_iff. auto. Qed.
Lemma x_many : px_ready (x_par Timew 1) 1 false (w_init (firstn 16 x_pts)).
Proof. apply x_ready; auto; [simpl; lia|]. intros a Ha. rewrite <- (firstn_skipn 16 x_pts). apply in_app_iff. auto. Qed.

Lemma px_default_loses : exists p init drs r z, px_ready p 1 false init /\ px_draws_ok drs /\ respects w_fit /\ p1_mech (px_1 p) = Timew /\
  px_evolute w_exp w_tau w_tau w_pw Mmax w_fit p None 1 false drs init = Some r /\
  In z (map fst init) /\ (px_y r < w_fit z)%Q.
Proof.
  destruct (run_of (x_run Timew 1 None 1 false (w_init (firstn 16 x_pts))) px_y 17%Q) as (r & E & Y); [vm_compute; reflexivity|].
  exists (x_par Timew 1), (w_init (firstn 16 x_pts)), x_draws, r, [9; 9]%Q. split; [apply x_many|]. split; [apply x_draws_ok|]. split; [apply w_fit_respects|].
  split; [reflexivity|]. split; [exact E|]. split; [left; reflexivity|]. rewrite Y. reflexivity.
Qed.
Lemma px_one_loses : exists p init drs r z, px_ready p 2 false init /\ px_draws_ok drs /\ respects w_fit /\ p1_mech (px_1 p) = Timew /\
  px_evolute w_exp w_tau w_tau w_pw Mmax w_fit p (Some 1) 2 false drs init = Some r /\
  In z (map fst init) /\ Forall (fun v => v < w_fit z)%Q (px_hist r) /\ (px_y r < w_fit z)%Q.
Proof.
  destruct (run_of (x_run Timew 1 (Some 1) 2 false (w_init (firstn 16 x_pts))) (fun r => (px_y r, px_hist r)) (4%Q, [0; 4]%Q)) as (r & E & Y); [vm_compute; reflexivity|].
  injection Y as Y1 Y2. exists (x_par Timew 1), (w_init (firstn 16 x_pts)), x_draws, r, [9; 9]%Q.
  split. { apply x_ready; auto; [simpl; lia|]. intros a Ha. rewrite <- (firstn_skipn 16 x_pts). apply in_app_iff. auto. }
  split; [apply x_draws_ok|]. split; [apply w_fit_respects|].
  split; [reflexivity|]. split; [exact E|]. split; [left; reflexivity|]. rewrite Y1, Y2. split; [|reflexivity].
  constructor; [reflexivity|]. constructor; [reflexivity|constructor].
Qed.
Lemma px_second_loses : exists p init drs a b c, px_ready p 1 false init /\ px_ready p 2 false init /\ px_draws_ok drs /\ respects w_fit /\ p1_mech (px_1 p) = Timew /\
  px_twice w_exp w_tau w_tau w_pw Mmax w_fit p None 1 drs false init 2 drs false init = Some (a, b) /\
  px_evolute w_exp w_tau w_tau w_pw Mmax w_fit p None 2 false drs init = Some c /\ (px_y b < px_y c)%Q /\ ~ never_worse Mmax (px_hist b).
Proof.
  destruct (run_of (px_twice w_exp w_tau w_tau w_pw Mmax w_fit (x_par Timew 1) None 1 x_draws false (w_init (firstn 6 x_pts)) 2 x_draws false (w_init (firstn 6 x_pts)))
    (fun r => (px_y (snd r), px_hist (snd r))) (17%Q, [18; 17]%Q)) as ([a b] & E & Y); [vm_compute; reflexivity|]. cbn [snd] in Y. injection Y as Y1 Y2.
  destruct x_run_few as (c & Ec & Yc). injection Yc as _ Y3 _ _.
  exists (x_par Timew 1), (w_init (firstn 6 x_pts)), x_draws, a, b, c. split; [apply x_few; lia|]. split; [apply x_few; lia|]. split; [apply x_draws_ok|]. split; [apply w_fit_respects|].
  split; [reflexivity|]. split; [exact E|]. split; [exact Ec|]. rewrite Y1, Y3. split; [reflexivity|].
  intros H. specialize (H 0 1 18%Q 17%Q ltac:(lia)). rewrite Y2 in H. specialize (H eq_refl eq_refl). cbn in H. lra.
Qed.
(** x0 is not checked. *)
Definition x_real : px_par := PxPar (P1Par [Dim false 0 9; Dim false 0 9] 5 None (1#10) 1 0 0 1 (205#100) (205#100) Timew 0 (fun _ => 1%Q) 1) (1#2) (1#2).
Lemma x_real_ready : px_ready x_real 1 true (w_init (firstn 6 x_pts)).
Proof.
  assert (H : px_ready (x_par Timew 1) 1 true (w_init (firstn 6 x_pts))).
  { apply x_ready; auto; [simpl; lia|]. intros a Ha. rewrite <- (firstn_skipn 6 x_pts). apply in_app_iff. auto. }
  assert (Wd : (d_lo (Dim false 0 9) <= d_hi (Dim false 0 9))%Q /\ (d_int (Dim false 0 9) = true -> is_int (d_lo (Dim false 0 9)) /\ is_int (d_hi (Dim false 0 9)))).
  { cbn [d_lo d_hi d_int]. split; [lra|]. intros X. discriminate X. }
  destruct H as [H1 H2 H3 H4 H5 H6 H7 H8]. constructor; auto.
  - constructor; [exact Wd|]. constructor; [exact Wd|constructor].
  - eapply Forall_impl; [|exact H8]. intros o (A & B). split; auto. change (feasible w_dims (fst o)) in A.
    inversion A as [|d v ds x (V1 & V2 & _) A']; subst. inversion A' as [|d2 v2 ds2 x2 (V3 & V4 & _) A2]; subst. inversion A2; subst. cbn [d_lo d_hi] in *.
    constructor; [split; [exact V1|split; [exact V2|intros X; discriminate X]]|]. constructor; [split; [exact V3|split; [exact V4|intros X; discriminate X]]|constructor].
Qed.
Lemma px_outside : exists p x0 drs r, px_draws_ok drs /\ respects w_fit /\ px_ready p 1 true (tl x0) /\ p1_mech (px_1 p) = Timew /\
  px_evolute w_exp w_tau w_tau w_pw Mmax w_fit p None 1 true drs x0 = Some r /\ px_x r = [20; 20]%Q /\ ~ feasible (p1_dims (px_1 p)) (px_x r).
Proof.
  destruct (run_of (px_evolute w_exp w_tau w_tau w_pw Mmax w_fit x_real None 1 true x_draws (w_init ((20, 20)%Q :: firstn 6 x_pts))) px_x [20; 20]%Q) as (r & E & Y); [vm_compute; reflexivity|].
  exists x_real, (w_init ((20, 20)%Q :: firstn 6 x_pts)), x_draws, r. split; [apply x_draws_ok|]. split; [apply w_fit_respects|].
  split; [exact x_real_ready|]. split; [reflexivity|].
  split; [exact E|]. split; [exact Y|]. rewrite Y. intros F. inversion F as [|d v ds x (_ & H & _) _]; subst. cbn in H. lra.
Qed.
(** ** Cases. *)
Lemma x_globw_case : px_ready (x_par Globw 1) 2 false (w_init (firstn 6 x_pts)) /\ best_of Mmin (fun _ => 0%Q) (map fst (w_init (firstn 6 x_pts))) [9; 9]%Q 0%Q /\ respects (fun _ => 0%Q).
Proof.
  split; [apply x_ready; auto; intros a Ha; rewrite <- (firstn_skipn 6 x_pts); apply in_app_iff; auto|].
  split; [|intros x y _; reflexivity]. split; [left; reflexivity|]. split; [reflexivity|]. intros z _. cbn. lra.
Qed.
Lemma x_few_room : length (w_init (firstn 6 x_pts)) + 2 * px_survivors (x_par Timew 1) <= p2_size None (2 * p1_npop (px_1 (x_par Timew 1))).
Proof. vm_compute. lia. Qed.
Definition x_line : px_par := PxPar (P1Par [Dim false 0 1] 5 None (1#10) 1 0 1 0 (205#100) (205#100) Timew 0 (fun _ => 1%Q) 1) (1#2) (1#2).
Lemma x_line_case : wf_dims (p1_dims (px_1 x_line)) /\ length (p1_dims (px_1 x_line)) = 1 /\
  Forall (fun o : list Q * list Q => feasible (p1_dims (px_1 x_line)) (fst o)) (repeat ([1#3], [1#2]) 6)%Q /\
  (od_rn (x_es (x_draws 0%nat) 0%nat) < p1_cxpb (px_1 x_line))%Q.
Proof.
  split; [constructor; [|constructor]; cbn; split; [unfold Qle; simpl; lia|intros H; discriminate H]|]. split; [reflexivity|]. split; [|cbn; lra].
  apply Forall_forall. intros o Ho. apply repeat_spec in Ho. subst o. cbn. constructor; [|constructor]. cbn. split; [lra|]. split; [lra|]. intros H. discriminate H.
Qed.
