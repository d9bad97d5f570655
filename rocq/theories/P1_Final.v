(** Proofs about PESA: whole runs. *)
From Coq Require Import List Arith ZArith QArith Bool Lia Lqa Permutation Sorted.
From Verif Require Import Base BaseFacts Space_Model Space_Spec Space_Facts ER_Model ER_Proofs P2_Mem Opt_Model Opt_Spec Opt_Facts Opt_Facts2
  Pop_Proofs ES_Model PSO_Model SA_Model SA_Spec SA_Proofs P2_Model P2_Spec P2_Start P1_Model P1_Spec P1_ES P1_SA P1_PSO P1_Proofs.
Import ListNotations.
Open Scope nat_scope.

Section Run.
Context (expf : Q -> Q) (tau tau' : nat -> Q) (pwf : Q -> Q -> Q) (m : mode) (fit : list Q -> Q) (p : p1_par) (fuel : nat).
Context (ngen : nat) (init : list (list Q * list Q)) (attr : option nat) (drs : nat -> p1_draw).
Context (RD : p1_ready p ngen init).
Local Notation steps := (ngen * p1_npop p).
Local Notation size := (p1_size attr steps).
Local Notation g := (p1_score m fit).
Local Notation inv := (p1_inv m fit p size (length init)).

Lemma mu_range : 1 <= p1_mu p <= p1_npop p.
Proof.
  pose proof (ry_npop _ _ _ RD) as N. unfold p1_mu. pose proof (ry_mu _ _ _ RD) as M.
  assert (1 <= p1_npop p / 2 <= p1_npop p). { split; [apply Nat.div_le_lower_bound; lia|apply Nat.div_le_upper_bound; lia]. }
  destruct (p1_muarg p) as [[|k]|]; auto. specialize (M (S k) eq_refl). lia.
Qed.
Lemma chains_range : 1 <= p1_chains p <= p1_npop p.
Proof.
  pose proof (ry_npop _ _ _ RD) as N. pose proof (ry_chains _ _ _ RD) as C. change (p1_chain_count p) with (p1_chains p) in C.
  assert (1 <= p1_chains p). { unfold p1_chains, p1_proc. destruct (Nat.ltb_spec 3 (p1_ncores p)); [apply Nat.div_le_lower_bound; lia|lia]. }
  split; auto. apply Nat.mod_divide in C; [|lia]. apply Nat.divide_pos_le in C; lia.
Qed.
Lemma size_pos : 1 <= size.
Proof. unfold p1_size. destruct attr as [[|k]|]; lia. Qed.

Definition alpha1_at (i : nat) : Q := match i with O => p1_alpha0 p | S _ => linear_anneal (1 + i * p1_npop p) steps (p1_alpha0 p) (p1_alpha1 p) end.
Definition w1_at (i : nat) : Q :=
  match i, p1_mech p with
  | S j, Timew => if p1_proc p then (9#10)%Q else ((9#10) - ((9#10) - (4#10)) * inject_Z (Z.of_nat (1 + j * p1_npop p)) / inject_Z (Z.of_nat steps))%Q
  | _, _ => (9#10)%Q
  end.
Definition sched (k : nat) (st : p1_state) : Prop :=
  t_step st = 1 + k * p1_npop p /\ t_alpha st = alpha1_at k /\ t_alphas st = map alpha1_at (seq 0 k) /\
  t_w st = w1_at k /\ t_ws st = map w1_at (seq 0 k) /\ exists rest, t_seen st = map fst init ++ rest.

Lemma p1_gen_seen k st st' : p1_gen expf tau tau' pwf m fit p fuel steps drs k st = Some st' -> exists new, t_seen st' = t_seen st ++ new.
Proof.
  intros H. unfold p1_gen in H. cbv zeta in H.
  apply bind_Some in H. destruct H as ([es s1] & _ & H). apply bind_Some in H. destruct H as ([mem1 cs] & _ & H).
  apply bind_Some in H. destruct H as ([[[sw pb] w] s3] & _ & H).
  apply bind_Some in H. destruct H as (mem2 & _ & H). apply bind_Some in H. destruct H as ([[[mem3 pop] swarm] sa] & _ & H).
  destruct (sample_greedy mem3 1) as [mem4 top]. apply bind_Some in H. destruct H as (b & _ & H). injection H as <-. cbn [t_seen]. eauto.
Qed.

Lemma p1_start_ok : exists st, p1_start m fit p attr ngen init = Some st /\ inv 0 st /\ sched 0 st.
Proof.
  unfold p1_start. pose proof (ry_gens _ _ _ RD) as G. pose proof (ry_warmup _ _ _ RD) as Wm. pose proof (ry_npop _ _ _ RD) as N.
  pose proof mu_range as MU. pose proof chains_range as CH.
  assert ((1 <=? ngen) && (p1_npop p <=? length init) && Qle_bool (p1_cxpb p + p1_mutpb p) 1
     && match p1_muarg p with Some (S k) => S k <? p1_npop p | _ => true end = true) as ->.
  { rewrite (proj2 (Nat.leb_le _ _) G), (proj2 (Nat.leb_le _ _) Wm), (proj2 (Qle_bool_iff _ _) (ry_prob _ _ _ RD)). cbn [andb].
    pose proof (ry_mu _ _ _ RD) as M. destruct (p1_muarg p) as [[|k]|]; auto. apply Nat.ltb_lt. apply M; auto. }
  cbv zeta. set (pop0 := map (fun o => Mem (fst o) (snd o) (g (fst o))) init).
  assert (L0 : length pop0 = length init) by (unfold pop0; apply map_length).
  destruct (p1_add_ok (new_memory size) Wna (map (fun a => (m_ind a, m_fit a)) pop0) (ring_new _ size_pos)) as (mem & -> & R & S1 & I1 & NE & L1 & K1).
  cbn [bind]. rewrite map_length, L0 in L1, K1. cbn [store new_memory length msize] in *.
  assert (H0 : forall a, In a pop0 -> mem_ok p a /\ m_fit a = g (m_ind a) /\ In (m_ind a) (map fst init)).
  { intros a Ha. unfold pop0 in Ha. apply in_map_iff in Ha. destruct Ha as (o & <- & Ho). cbn [m_ind m_fit].
    pose proof (ry_init _ _ _ RD) as F. rewrite Forall_forall in F. split; [exact (F o Ho)|]. split; auto. apply in_map; auto. }
  assert (HS : forall a, In a (Opt_Model.sort_desc m_fit pop0) -> In a pop0) by (intros a Ha; apply in_sort_desc in Ha; auto).
  assert (LS : length (Opt_Model.sort_desc m_fit pop0) = length init) by (rewrite sort_desc_length; auto).
  set (sorted := Opt_Model.sort_desc m_fit pop0) in *.
  destruct (nth_error sorted 0) as [top|] eqn:Et; [|apply nth_error_None in Et; lia].
  cbn [bind]. eexists. split; [reflexivity|]. split.
  - constructor; cbn [t_mem t_pop t_sa t_swarm t_pos t_fit t_best t_hist t_seen].
    + exact R.
    + exact S1.
    + apply NE. right. destruct init; [simpl in Wm; lia|discriminate].
    + lia.
    + intros b Hb. destruct (I1 b Hb) as [H|[]]. apply in_map_iff in H. destruct H as (a & E & Ha). destruct (H0 a Ha) as (A1 & A2 & A3).
      injection E as <- <-. split; [apply A1|]. split; [rewrite A2; reflexivity|auto].
    + apply Forall_forall. intros a Ha. apply in_firstn in Ha. apply (H0 a). auto.
    + rewrite firstn_length, LS. lia.
    + rewrite map_length, firstn_length, LS. lia.
    + intros x v H. apply in_map_iff in H. destruct H as (a & E & Ha). apply in_firstn in Ha. destruct (H0 a (HS a Ha)) as (A1 & A2 & A3).
      injection E as <- <-. split; [apply A1|]. split; [rewrite A2; reflexivity|auto].
    + apply Forall_forall. intros a Ha. apply in_map_iff in Ha. destruct Ha as (q & <- & Hq). apply in_firstn in Hq.
      destruct (H0 q (HS q Hq)) as ((A1 & _) & _). split; [exact A1|]. split; [|exact A1]. cbn [p1_particle q_vel fst].
      rewrite map_length. apply feasible_length. exact A1.
    + rewrite map_length, firstn_length, LS. lia.
    + apply nth_error_In in Et. destruct (H0 top (HS top Et)) as (A1 & A2 & A3). split; [apply A1|]. split; [rewrite A2; reflexivity|auto].
    + apply Forall_forall. intros x Hx. apply in_map_iff in Hx. destruct Hx as (o & <- & Ho). pose proof (ry_init _ _ _ RD) as F. rewrite Forall_forall in F. apply (F o Ho).
    + rewrite map_length. unfold p1_evals. lia.
    + reflexivity.
    + intros [|i] v Hv; discriminate.
    + lia.
    + intros Rm. split; [|intros [|i] v Hv; discriminate].
      intros x Hx. apply in_map_iff in Hx. destruct Hx as (o & <- & Ho). destruct K1 as (_ & K1); [lia|].
      destruct (K1 (fst o) (g (fst o))) as (b & Hb & Eb).
      { apply in_map_iff. exists (Mem (fst o) (snd o) (g (fst o))). split; auto. unfold pop0. apply in_map_iff. exists o. auto. }
      exists b. split; auto. rewrite Eb. apply Qle_refl.
  - split; [reflexivity|]. split; [reflexivity|]. split; [reflexivity|]. split; [reflexivity|]. split; [reflexivity|]. exists []. rewrite app_nil_r. reflexivity.
Qed.

Lemma p1_step (DR : p1_draws_ok drs) k st st' : inv k st /\ sched k st -> p1_gen expf tau tau' pwf m fit p fuel steps drs k st = Some st' -> inv (S k) st' /\ sched (S k) st'.
Proof.
  intros (I & A1 & A2 & A3 & A4 & A5 & rest & A6) E. destruct (p1_gen_seen _ _ _ E) as (new & En).
  destruct (p1_gen_ok expf tau tau' pwf m fit p fuel (ry_dims _ _ _ RD) (ry_two _ _ _ RD) (ry_npop _ _ _ RD) mu_range steps size (length init) drs DR k st st' I E) as (I' & B1 & B2 & B3 & B4 & B5).
  split; auto. split; [lia|]. split. { rewrite B2, A1. cbn [alpha1_at]. f_equal. lia. }
  split. { rewrite B3, A3, A2, seq_S, map_app. reflexivity. }
  split. { rewrite B5, A1, A4. cbn [w1_at]. destruct (p1_mech p) eqn:Em; auto; try (unfold w1_at; rewrite Em; destruct k; auto). destruct (p1_proc p) eqn:Ep; auto. }
  split. { rewrite B4, A5, A4, seq_S, map_app. reflexivity. }
  exists (rest ++ new). rewrite En, A6, app_assoc. reflexivity.
Qed.

(** All that is known of a run. *)
Lemma p1_run (DR : p1_draws_ok drs) r : p1_evolute expf tau tau' pwf m fit p fuel attr ngen drs init = Some r ->
  exists st x y, inv ngen st /\ sched ngen st /\ t_best st = Some (x, y) /\ samp_ok m fit p (t_seen st) x y /\ nth_error (t_hist st) (ngen - 1) = Some y /\
  r = P1Res x (as_max m y) (map (as_max m) (t_hist st)) (Some (length (store (t_mem st)))) (t_alphas st) (t_ws st) (t_seen st).
Proof.
  intros E. unfold p1_evolute in E. destruct p1_start_ok as (st0 & E0 & I0 & S0). rewrite E0 in E. cbn [bind] in E.
  apply bind_Some in E. destruct E as (st & Eg & E).
  apply (gens_nat (p1_gen expf tau tau' pwf m fit p fuel steps drs) (fun k st => inv k st /\ sched k st)) in Eg; auto; [|intros; eapply p1_step; eauto].
  cbn [Nat.add] in Eg. destruct Eg as (I & Sc). destruct (iv_best _ _ _ _ _ _ _ I (ry_gens _ _ _ RD)) as (x & y & Eb & Ok & Hl).
  rewrite Eb in E. cbn [bind] in E. injection E as <-. exists st, x, y. auto 10.
Qed.

Lemma p1_total : p1_draws_ok drs -> p1_varied p fuel drs -> (forall q, 0 < expf q)%Q -> p1_mech p <> Globw ->
  exists r, p1_evolute expf tau tau' pwf m fit p fuel attr ngen drs init = Some r.
Proof.
  intros DR HV He HG. unfold p1_evolute. destruct p1_start_ok as (st0 & E0 & I0 & S0). rewrite E0. cbn [bind].
  destruct (gens_nat_total (p1_gen expf tau tau' pwf m fit p fuel steps drs) (fun k st => inv k st /\ sched k st) ngen 0 st0) as (st & -> & I & _); auto.
  - intros k st _ I.
    destruct (p1_gen_total expf tau tau' pwf m fit p fuel (ry_dims _ _ _ RD) (ry_two _ _ _ RD) (ry_npop _ _ _ RD) mu_range steps size (length init) drs DR k st He HV (ry_chains _ _ _ RD) (fun e => False_ind _ (HG e)) (proj1 I)) as (st' & E').
    exists st'. split; auto. eapply p1_step; eauto.
  - cbn [bind]. destruct (iv_best _ _ _ _ _ _ _ I) as (x & y & -> & _); [pose proof (ry_gens _ _ _ RD); lia|]. cbn [bind]. eauto.
Qed.

Lemma p1_report r : p1_draws_ok drs -> p1_evolute expf tau tau' pwf m fit p fuel attr ngen drs init = Some r ->
  feasible (p1_dims p) (o_x r) /\ In (o_x r) (o_seen r) /\ (o_y r == fit (o_x r))%Q /\
  Forall (feasible (p1_dims p)) (o_seen r) /\ length (o_seen r) = p1_evals p (length init) ngen /\ firstn (length init) (o_seen r) = map fst init /\
  length (o_hist r) = ngen /\ nth_error (o_hist r) (ngen - 1) = Some (o_y r) /\
  forall i v, nth_error (o_hist r) i = Some v -> exists z, In z (firstn (p1_evals p (length init) (S i)) (o_seen r)) /\ (v == fit z)%Q.
Proof.
  intros DR E. destruct (p1_run DR r E) as (st & x & y & I & (_ & _ & _ & _ & _ & rest & Sn) & Eb & (O1 & O2 & O3) & Hl & ->). cbn [o_x o_y o_hist o_seen].
  assert (INV : forall v z, (v == g z)%Q -> (as_max m v == fit z)%Q).
  { intros v z Hv. transitivity (as_max m (g z)); [|apply as_max_invol]. destruct m; simpl; [rewrite Hv; reflexivity|exact Hv]. }
  split; auto. split; auto. split; auto. split; [apply I|]. split; [apply I|]. split.
  { rewrite Sn. rewrite firstn_app, map_length, Nat.sub_diag. simpl. rewrite app_nil_r. rewrite <- (map_length fst). apply firstn_all. }
  split; [rewrite map_length; apply I|]. split; [rewrite nth_error_map, Hl; reflexivity|].
  intros i v Hv. rewrite nth_error_map in Hv. destruct (nth_error (t_hist st) i) as [q|] eqn:Eq; [|discriminate]. injection Hv as <-.
  destruct (iv_vals _ _ _ _ _ _ _ I i q Eq) as (z & Hz & Ez). exists z. auto.
Qed.

Lemma p1_best r : p1_draws_ok drs -> p1_evolute expf tau tau' pwf m fit p fuel attr ngen drs init = Some r ->
  length init + ngen * p1_survivors p <= size ->
  (forall i v, nth_error (o_hist r) i = Some v -> forall z, In z (firstn (p1_evals p (length init) (S i)) (o_seen r)) -> as_good m v (fit z)) /\
  never_worse m (o_hist r) /\ best_of m fit (o_seen r) (o_x r) (o_y r).
Proof.
  intros DR E Rm. pose proof (p1_report r DR E) as (R1 & R2 & R3 & R4 & R5 & R6 & R7 & R8 & R9).
  assert (H : forall i v, nth_error (o_hist r) i = Some v -> forall z, In z (firstn (p1_evals p (length init) (S i)) (o_seen r)) -> as_good m v (fit z)).
  { destruct (p1_run DR r E) as (st & x & y & I & _ & Eb & _ & Hl & ->). cbn [o_x o_y o_hist o_seen].
    intros i v Hv z Hz. rewrite nth_error_map in Hv. destruct (nth_error (t_hist st) i) as [q|] eqn:Eq; [|discriminate]. injection Hv as <-.
    destruct (iv_room _ _ _ _ _ _ _ I Rm) as (_ & V). apply as_max_good. rewrite as_max_invol. apply (V i q Eq z Hz). }
  split; auto. pose proof (ry_gens _ _ _ RD) as G. split.
  - intros i j a b Hij Ha Hb. destruct (R9 i a Ha) as (z & Hz & Ez).
    assert (X : as_good m b (fit z)).
    { apply (H j b Hb). revert Hz. apply P2_Final.firstn_incl_le. unfold p1_evals. nia. }
    destruct m; cbn [as_good] in *; rewrite Ez; exact X.
  - split; auto. split; auto. intros z Hz. apply (H _ _ R8). replace (S (ngen - 1)) with ngen by lia.
    rewrite <- R5, firstn_all. auto.
Qed.

Lemma steps_pos : (0 < inject_Z (Z.of_nat steps))%Q.
Proof.
  pose proof (ry_gens _ _ _ RD). pose proof (ry_npop _ _ _ RD). change 0%Q with (inject_Z 0). rewrite <- Zlt_Qlt. nia.
Qed.

(** The exponents and the inertia weights. *)
Lemma p1_schedules r : p1_draws_ok drs -> p1_evolute expf tau tau' pwf m fit p fuel attr ngen drs init = Some r ->
  length (o_alphas r) = ngen /\ length (o_ws r) = ngen /\ nth_error (o_alphas r) 0 = Some (p1_alpha0 p) /\
  (forall i a, nth_error (o_alphas r) (S i) = Some a ->
     (a == p1_alpha0 p + (p1_alpha1 p - p1_alpha0 p) * inject_Z (Z.of_nat (1 + S i * p1_npop p)) / inject_Z (Z.of_nat (ngen * p1_npop p)))%Q) /\
  (forall i w, nth_error (o_ws r) i = Some w -> w = w1_at i).
Proof.
  intros DR E. destruct (p1_run DR r E) as (st & x & y & I & (_ & _ & A3 & _ & A5 & _) & _ & _ & _ & ->). cbn [o_alphas o_ws].
  pose proof (ry_gens _ _ _ RD) as G. pose proof (ry_npop _ _ _ RD) as N. rewrite A3, A5, !map_length, !seq_length. split; auto. split; auto.
  split. { destruct ngen; [lia|reflexivity]. }
  assert (NT : forall i, i < ngen -> nth_error (seq 0 ngen) i = Some i).
  { intros i Hi. rewrite (nth_error_nth' _ 0) by (rewrite seq_length; auto). rewrite seq_nth; auto. }
  assert (LT : forall (f : nat -> Q) i a, nth_error (map f (seq 0 ngen)) i = Some a -> i < ngen /\ a = f i).
  { intros f i a H. assert (Hi : i < ngen). { rewrite <- (seq_length ngen 0), <- (map_length f). apply nth_error_Some. congruence. }
    split; auto. rewrite nth_error_map, (NT i Hi) in H. injection H as <-. auto. }
  split.
  - intros i a H. apply LT in H. destruct H as (Hi & ->). cbn [alpha1_at]. unfold linear_anneal. pose proof steps_pos as SP.
    match goal with |- context [Qle_bool 1 ?t] => destruct (Qle_bool 1 t) eqn:B end.
    + apply Qle_bool_iff in B. exfalso.
      assert (Lt : (inject_Z (Z.of_nat (1 + S i * p1_npop p)) < inject_Z (Z.of_nat steps))%Q) by (rewrite <- Zlt_Qlt; nia).
      assert (1 * inject_Z (Z.of_nat steps) <= inject_Z (Z.of_nat (1 + S i * p1_npop p)))%Q; [|lra].
      apply (Qmult_le_r _ _ _ SP) in B. eapply Qle_trans; [exact B|]. apply Qle_lteq. right. field. lra.
    + field. lra.
  - intros i w H. apply LT in H. apply H.
Qed.

(** Every population starts from best warm-up points. *)
Lemma p1_start_best st : p1_start m fit p attr ngen init = Some st ->
  best_points m fit (p1_npop p) (map fst init) (map m_ind (t_pop st)) /\
  best_points m fit (p1_npop p) (map fst init) (map q_pos (t_swarm st)) /\
  best_points m fit (p1_chain_count p) (map fst init) (map fst (t_sa st)) /\
  best_of m fit (map fst init) (t_pos st) (as_max m (t_fit st)).
Proof.
  intros E. unfold p1_start in E. destruct (_ && _); [|discriminate]. cbv zeta in E.
  set (pop0 := map (fun o => Mem (fst o) (snd o) (g (fst o))) init) in E.
  apply bind_Some in E. destruct E as (mem & _ & E). apply bind_Some in E. destruct E as (top & Et & E). injection E as <-. cbn [t_pop t_swarm t_sa t_pos t_fit].
  pose proof (ry_warmup _ _ _ RD) as Wm. pose proof chains_range as CH.
  assert (L0 : length pop0 = length init) by (unfold pop0; apply map_length).
  assert (H0 : forall a, In a (Opt_Model.sort_desc m_fit pop0) -> m_fit a = g (m_ind a)).
  { intros a Ha. apply in_sort_desc in Ha. unfold pop0 in Ha. apply in_map_iff in Ha. destruct Ha as (o & <- & Ho). reflexivity. }
  assert (P0 : map m_ind pop0 = map fst init) by (unfold pop0; rewrite map_map; reflexivity).
  pose proof (Opt_Facts.sort_desc_sorted m_fit pop0) as St. pose proof (Opt_Facts.sort_desc_perm m_fit pop0) as Pm.
  assert (B : forall n, n <= length init -> best_points m fit n (map fst init) (map m_ind (firstn n (Opt_Model.sort_desc m_fit pop0)))).
  { intros n Hn. split. { rewrite map_length, firstn_length, sort_desc_length. lia. }
    exists (map m_ind (skipn n (Opt_Model.sort_desc m_fit pop0))). split.
    - rewrite <- map_app, firstn_skipn, <- P0. apply Permutation_map. symmetry. exact Pm.
    - intros y z Hy Hz. apply in_map_iff in Hy. destruct Hy as (a & <- & Ha). apply in_map_iff in Hz. destruct Hz as (b & <- & Hb).
      apply as_max_good. change (g (m_ind b) <= g (m_ind a))%Q.
      rewrite <- H0 by (rewrite <- (firstn_skipn n); apply in_app_iff; auto).
      rewrite <- (H0 a) by (rewrite <- (firstn_skipn n); apply in_app_iff; auto).
      eapply P2_Start.sorted_split; [exact St|exact Ha|exact Hb]. }
  split; [apply B; auto|]. split; [rewrite map_map; apply B; auto|]. split; [rewrite map_map; apply B; lia|].
  destruct (Opt_Model.sort_desc m_fit pop0) as [|t l] eqn:Es; [discriminate|]. injection Et as <-.
  assert (It : In t (t :: l)) by (left; auto). rewrite (H0 t It). split.
  - rewrite <- P0. apply in_map. eapply Permutation_in; [exact Pm|exact It].
  - split; [apply as_max_invol|]. intros z Hz. rewrite <- P0 in Hz. apply in_map_iff in Hz. destruct Hz as (a & <- & Ha).
    apply as_max_good. rewrite as_max_invol. change (g (m_ind a) <= g (m_ind t))%Q.
    apply (Permutation_in _ (Permutation_sym Pm)) in Ha. rewrite <- (H0 a Ha), <- (H0 t It).
    inversion St as [|? ? _ S2]; subst. destruct Ha as [<-|Ha]; [lra|]. rewrite Forall_forall in S2. apply S2; auto.
Qed.
End Run.
