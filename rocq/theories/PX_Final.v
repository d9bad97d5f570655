(** Proofs about PESAX: whole runs. *)
From Coq Require Import List Arith ZArith QArith Bool Lia Lqa Permutation Sorted.
From Verif Require Import Base BaseFacts Space_Model Space_Spec Space_Facts ER_Model ER_Proofs Opt_Model Opt_Spec Opt_Facts Opt_Facts2 Pop_Model Pop_Spec Pop_Proofs
  ES_Model PSO_Model DE_Model P2_Model P2_Spec P2_Mem P2_DE P2_Proofs P1_Model P1_Spec P1_ES P1_SA P1_PSO P1_Proofs P1_Final PX_Model PX_Spec PX_Proofs.
Import ListNotations.
Open Scope nat_scope.

Lemma map_map2_l {A B C D} (f : A -> B -> C) (k : C -> D) (j : A -> D) : (forall a b, k (f a b) = j a) ->
  forall l l', length l = length l' -> map k (map2 f l l') = map j l.
Proof. intros H. induction l as [|a l IH]; intros [|b l'] L; try discriminate; cbn [map2 map]; auto. rewrite H, IH; auto. Qed.
Lemma map_fst_combine {A B} : forall (l : list A) (r : list B), length l = length r -> map fst (combine l r) = l.
Proof. induction l; intros [|b r] L; try discriminate; simpl; auto. rewrite IHl; auto. Qed.
Lemma map_snd_combine {A B} : forall (l : list A) (r : list B), length l = length r -> map snd (combine l r) = r.
Proof. induction l; intros [|b r] L; try discriminate; simpl; auto. rewrite IHl; auto. Qed.

Section Run.
Context (expf : Q -> Q) (tau tau' : nat -> Q) (pwf : Q -> Q -> Q) (m : mode) (fit : list Q -> Q) (p : px_par).
Context (ngen : nat) (given : bool) (init : list (list Q * list Q)) (attr : option nat) (drs : nat -> px_draw).
Context (RD : px_ready p ngen given init).
Local Notation p1 := (px_1 p).
Local Notation npop := (p1_npop p1).
Local Notation steps := (ngen * npop).
Local Notation size := (p2_size attr steps).
Local Notation g := (p1_score m fit).
Local Notation inv := (px_inv m fit p size (length init)).

Lemma pxmu_range : 1 <= p1_mu p1 <= npop.
Proof.
  pose proof (rx_npop _ _ _ _ RD) as N. unfold p1_mu. pose proof (rx_mu _ _ _ _ RD) as M.
  assert (1 <= npop / 2 <= npop). { split; [apply Nat.div_le_lower_bound; lia|apply Nat.div_le_upper_bound; lia]. }
  destruct (p1_muarg p1) as [[|k]|]; auto. specialize (M (S k) eq_refl). lia.
Qed.
Lemma pxsize_pos : 1 <= size.
Proof. unfold p2_size. destruct attr as [[|k]|]; lia. Qed.
Lemma warm : npop <= length init.
Proof. pose proof (rx_warmup _ _ _ _ RD) as H. destruct given; lia. Qed.

Definition pop0 : list xmem := map2 (fun r o => XMem r (snd o) (g (fst o))) (seq 0 (length init)) init.
Lemma pop0_spec : Forall2 (fun a o => xm_ind a < length init /\ h_get (map fst init) (xm_ind a) = fst o /\ xm_strat a = snd o /\ xm_fit a = g (fst o)) pop0 init.
Proof.
  pose proof (new_map2 fst (fun r (o : list Q * list Q) => XMem r (snd o) (g (fst o))) init []) as H. cbn [app length] in H.
  eapply Forall2_weaken; [|exact H]. intros a o (r & -> & H1 & H2). cbn [xm_ind xm_strat xm_fit]. rewrite map_length in H1. auto.
Qed.
Lemma pop0_len : length pop0 = length init.
Proof. apply (Forall2_len _ _ _ pop0_spec). Qed.
Lemma pop0_read : map (fun a => h_get (map fst init) (xm_ind a)) pop0 = map fst init.
Proof. pose proof pop0_spec as H. revert H. generalize (map fst init) at 1 2. generalize (length init). intros n h. generalize pop0, init. induction 1 as [|a o la lo (A & B & _) H IH]; simpl; auto. rewrite B, IH. auto. Qed.
Definition best0 : list xmem := firstn npop (Opt_Model.sort_desc xm_fit pop0).
Lemma best0_len : length best0 = npop.
Proof. unfold best0. rewrite firstn_length, sort_desc_length, pop0_len. pose proof warm. lia. Qed.
Lemma best0_in a : In a best0 -> In a pop0.
Proof. intros H. apply in_firstn in H. apply in_sort_desc in H. auto. Qed.
Definition vecs0 : list (list Q) := map (fun a => h_get (map fst init) (xm_ind a)) best0.

(** Every population starts from best warm-up points. *)
Lemma vecs0_best : best_points m fit npop (map fst init) vecs0.
Proof.
  assert (H0 : forall a, In a pop0 -> xm_fit a = g (h_get (map fst init) (xm_ind a))).
  { intros a Ha. destruct (Forall2_in_l _ _ _ pop0_spec a Ha) as (o & _ & _ & A & _ & B). congruence. }
  pose proof (Opt_Facts.sort_desc_sorted xm_fit pop0) as St. pose proof (Opt_Facts.sort_desc_perm xm_fit pop0) as Pm.
  assert (In0 : forall a, In a (Opt_Model.sort_desc xm_fit pop0) -> In a pop0) by (intros a Ha; apply in_sort_desc in Ha; auto).
  split. { unfold vecs0. rewrite map_length. apply best0_len. }
  exists (map (fun a => h_get (map fst init) (xm_ind a)) (skipn npop (Opt_Model.sort_desc xm_fit pop0))). split.
  - unfold vecs0, best0. rewrite <- map_app, firstn_skipn. rewrite <- pop0_read at 1. apply Permutation_map. symmetry. exact Pm.
  - intros y z Hy Hz. unfold vecs0, best0 in Hy. apply in_map_iff in Hy. destruct Hy as (a & <- & Ha). apply in_map_iff in Hz. destruct Hz as (b & <- & Hb).
    apply as_max_good. change (g (h_get (map fst init) (xm_ind b)) <= g (h_get (map fst init) (xm_ind a)))%Q.
    rewrite <- H0 by (apply In0; rewrite <- (firstn_skipn npop); apply in_app_iff; auto).
    rewrite <- (H0 a) by (apply In0; rewrite <- (firstn_skipn npop); apply in_app_iff; auto).
    eapply P2_Start.sorted_split; [exact St|exact Ha|exact Hb].
Qed.

Definition pxsched (k : nat) (st : px_state) : Prop :=
  y_step st = 1 + k * npop /\ y_alpha st = alpha1_at p1 ngen k /\ y_alphas st = map (alpha1_at p1 ngen) (seq 0 k) /\
  y_w st = w1_at p1 ngen k /\ y_ws st = map (w1_at p1 ngen) (seq 0 k) /\ exists rest, y_seen st = map fst init ++ rest.

Lemma px_start_ok : exists st, px_start m fit p attr ngen given init = Some st /\ inv 0 st /\ pxsched 0 st /\
  map (fun a => h_get (y_heap st) (xm_ind a)) (y_pop st) = vecs0 /\
  map (fun a => h_get (y_heap st) (xp_pos a)) (y_swarm st) = vecs0 /\
  map (fun a => h_get (y_heap st) (xp_lpos a)) (y_swarm st) = vecs0 /\
  map (h_get (y_heap st)) (y_de st) = vecs0 /\
  best_of m fit (map fst init) (h_get (y_heap st) (y_lead st)) (as_max m (y_lfit st)).
Proof.
  unfold px_start. pose proof (rx_gens _ _ _ _ RD) as G. pose proof (rx_warmup _ _ _ _ RD) as Wm. pose proof (rx_npop _ _ _ _ RD) as N. pose proof warm as WU.
  pose proof pxmu_range as MU.
  assert ((1 <=? ngen) && (if given then npop <=? length init else npop <? length init) && Qle_bool (p1_cxpb p1 + p1_mutpb p1) 1 && (4 <? npop)
     && match p1_muarg p1 with Some (S k) => S k <? npop | _ => true end = true) as ->.
  { rewrite (proj2 (Nat.leb_le _ _) G), (proj2 (Qle_bool_iff _ _) (rx_prob _ _ _ _ RD)), (proj2 (Nat.ltb_lt 4 npop)) by lia.
    assert ((if given then npop <=? length init else npop <? length init) = true) as ->. { destruct given; [apply Nat.leb_le|apply Nat.ltb_lt]; auto. }
    cbn [andb]. pose proof (rx_mu _ _ _ _ RD) as M. destruct (p1_muarg p1) as [[|k]|]; auto. apply Nat.ltb_lt. apply M; auto. }
  unfold h_new. cbn [app]. change (@length (list Q) []) with 0. rewrite map_length. fold pop0. cbv zeta.
  change (map2 (fun (r : ref) (o : list Q * list Q) => XMem r (snd o) (px_score m fit (fst o))) (seq 0 (length init)) init) with pop0.
  set (h := map fst init). assert (Lh : length h = length init) by apply map_length.
  destruct (p2_add_ok h (new_memory size) Lna (map (fun a => (xm_ind a, xm_fit a)) pop0) (ring_new _ pxsize_pos)) as (mem & -> & R & S1 & I1 & NE & L1 & K1).
  cbn [bind]. rewrite map_length, pop0_len in L1, K1. cbn [store new_memory length msize] in *.
  fold best0. change (map (fun a => h_get h (xm_ind a)) best0) with vecs0.
  assert (Lv : length vecs0 = npop) by (unfold vecs0; rewrite map_length; apply best0_len).
  destruct (nth_error best0 0) as [top|] eqn:Et; [|apply nth_error_None in Et; rewrite best0_len in Et; lia].
  cbn [bind]. pose proof best0_len as LB.
  set (h1 := h ++ vecs0). set (h2 := h1 ++ vecs0). set (h3 := h2 ++ vecs0). set (h4 := h3 ++ vecs0).
  set (r1 := seq (length init) (length vecs0)). set (r2 := seq (length h1) (length vecs0)).
  set (r3 := seq (length h2) (length vecs0)). set (r4 := seq (length h3) (length vecs0)).
  assert (Z1 : length h1 = length h + npop) by (unfold h1; rewrite app_length; lia).
  assert (Z2 : length h2 = length h1 + npop) by (unfold h2; rewrite app_length; lia).
  assert (Z3 : length h3 = length h2 + npop) by (unfold h3; rewrite app_length; lia).
  assert (Z4 : length h4 = length h3 + npop) by (unfold h4; rewrite app_length; lia).
  assert (G3 : forall r, r < length h3 -> h_get h4 r = h_get h3 r) by (intros; apply get_app; auto).
  assert (G2 : forall r, r < length h2 -> h_get h4 r = h_get h2 r) by (intros; rewrite G3 by lia; apply get_app; auto).
  assert (G1 : forall r, r < length h1 -> h_get h4 r = h_get h1 r) by (intros; rewrite G2 by lia; apply get_app; auto).
  assert (G0 : forall r, r < length h -> h_get h4 r = h_get h r) by (intros; rewrite G1 by lia; apply get_app; auto).
  assert (V1 : map (h_get h4) r1 = vecs0).
  { rewrite <- (new_read vecs0 h). fold h1. unfold r1. rewrite Lh. apply map_ext_in. intros r Hr. apply in_seq in Hr. apply G1. lia. }
  assert (V2 : map (h_get h4) r2 = vecs0).
  { rewrite <- (new_read vecs0 h1). fold h2. unfold r2. apply map_ext_in. intros r Hr. apply in_seq in Hr. apply G2. lia. }
  assert (V3 : map (h_get h4) r3 = vecs0).
  { rewrite <- (new_read vecs0 h2). fold h3. unfold r3. apply map_ext_in. intros r Hr. apply in_seq in Hr. apply G3. lia. }
  assert (V4 : map (h_get h4) r4 = vecs0) by (exact (new_read vecs0 h3)).
  assert (R1 : forall r, In r r1 -> r < length h4) by (intros r Hr; apply in_seq in Hr; lia).
  assert (R2 : forall r, In r r2 -> r < length h4) by (intros r Hr; apply in_seq in Hr; lia).
  assert (R3 : forall r, In r r3 -> r < length h4) by (intros r Hr; apply in_seq in Hr; lia).
  assert (R4 : forall r, In r r4 -> r < length h4) by (intros r Hr; apply in_seq in Hr; lia).
  assert (LR1 : @length ref r1 = npop) by (unfold r1; rewrite seq_length; auto).
  assert (LR3 : @length ref r3 = npop) by (unfold r3; rewrite seq_length; auto).
  assert (LR4 : @length ref r4 = npop) by (unfold r4; rewrite seq_length; auto).
  assert (LC : length (@combine ref ref r3 r4) = length best0) by (rewrite combine_length; lia).
  assert (Fi : Forall (feasible (p1_dims p1)) h).
  { apply Forall_forall. intros x Hx. apply in_map_iff in Hx. destruct Hx as (o & <- & Ho). pose proof (rx_init _ _ _ _ RD) as F. rewrite Forall_forall in F. apply (F o Ho). }
  assert (Fv : Forall (feasible (p1_dims p1)) vecs0).
  { apply Forall_forall. intros x Hx. unfold vecs0 in Hx. apply in_map_iff in Hx. destruct Hx as (a & <- & Ha). apply best0_in in Ha.
    destruct (Forall2_in_l _ _ _ pop0_spec a Ha) as (o & Ho & _ & A & _). rewrite A. pose proof (rx_init _ _ _ _ RD) as F. rewrite Forall_forall in F. apply (F o Ho). }
  assert (H0 : forall a, In a pop0 -> ent m fit h4 (map fst init) (xm_ind a) (xm_fit a) /\ strat_ok p (xm_strat a)).
  { intros a Ha. destruct (Forall2_in_l _ _ _ pop0_spec a Ha) as (o & Ho & A & B & C & D).
    pose proof (rx_init _ _ _ _ RD) as F. rewrite Forall_forall in F. destruct (F o Ho) as (F1 & F2 & F3). split.
    - split; [lia|]. rewrite G0 by lia. unfold h. rewrite B, D. split; [reflexivity|]. apply point_in_self. apply in_map; auto.
    - rewrite C. split; auto. }
  assert (It : In top pop0) by (apply best0_in; eapply nth_error_In; eauto).
  eexists. split; [reflexivity|]. cbn [y_heap y_pop y_swarm y_de y_lead y_lfit]. split.
  - constructor; cbn [y_heap y_mem y_pop y_de y_swarm y_lead y_lfit y_best y_hist y_seen].
    + unfold h4, h3, h2, h1. rewrite !Forall_app. auto.
    + exact R.
    + exact S1.
    + apply NE. right. intros Hn. apply (f_equal (@length _)) in Hn. rewrite map_length, pop0_len in Hn. simpl in Hn. lia.
    + lia.
    + intros b Hb. destruct (I1 b Hb) as [H|[]]. apply in_map_iff in H. destruct H as (a & E & Ha). injection E as <- <-. apply (H0 a Ha).
    + apply Forall_forall. intros a Ha. apply map2_In in Ha. destruct Ha as (r & b & Hr & Hb & ->). split; [apply R1; auto|]. apply (H0 b). apply best0_in; auto.
    + rewrite map2_length; lia.
    + apply Forall_forall. exact R2.
    + unfold r2. rewrite seq_length. auto.
    + apply Forall_forall. intros a Ha. apply map2_In in Ha. destruct Ha as ([l1 l2] & b & Hr & Hb & ->). cbn [xp_pos xp_vel xp_lpos px_particle fst snd].
      split; [apply R3; eapply in_combine_l; eauto|]. split; [|apply R4; eapply in_combine_r; eauto].
      cbn [xp_vel]. rewrite map_length. apply feasible_length. apply best0_in in Hb.
      destruct (Forall2_in_l _ _ _ pop0_spec b Hb) as (o & Ho & A & B & _). unfold h. rewrite B. pose proof (rx_init _ _ _ _ RD) as F. rewrite Forall_forall in F. apply (F o Ho).
    + rewrite map2_length; lia.
    + apply (H0 top It).
    + exact Fi.
    + rewrite Lh. unfold px_evals. lia.
    + reflexivity.
    + intros [|i] v Hv; discriminate.
    + lia.
    + intros Rm. split; [|intros [|i] v Hv; discriminate].
      intros x Hx. apply in_map_iff in Hx. destruct Hx as (o & <- & Ho). destruct K1 as (_ & K1); [lia|].
      destruct (Forall2_in_r _ _ _ pop0_spec o Ho) as (a & Ha & _ & _ & _ & Ea).
      destruct (K1 (xm_ind a, xm_fit a)) as (b & Hb & Eb); [apply in_map_iff; exists a; auto|].
      exists b. split; auto. rewrite Eb. cbn [snd]. rewrite Ea. apply Qle_refl.
  - split. { split; [reflexivity|]. split; [reflexivity|]. split; [reflexivity|]. split; [reflexivity|]. split; [reflexivity|]. exists []. rewrite app_nil_r. reflexivity. }
    split. { rewrite (map_map2_l _ _ (h_get h4)) by (auto; lia). exact V1. }
    split. { rewrite (map_map2_l _ _ (fun l => h_get h4 (fst l))) by auto. rewrite <- (map_map fst). rewrite map_fst_combine by lia. exact V3. }
    split. { rewrite (map_map2_l _ _ (fun l => h_get h4 (snd l))) by auto. rewrite <- (map_map snd). rewrite map_snd_combine by lia. exact V4. }
    split; [exact V2|].
    destruct (Forall2_in_l _ _ _ pop0_spec top It) as (o & Ho & A & B & _ & D). fold h in B. rewrite G0 by lia. rewrite B, D. split; [apply in_map; auto|]. split; [apply as_max_invol|].
    intros z Hz. apply in_map_iff in Hz. destruct Hz as (o' & <- & Ho'). apply as_max_good. rewrite as_max_invol. change (g (fst o') <= g (fst o))%Q.
    destruct (Forall2_in_r _ _ _ pop0_spec o' Ho') as (a & Ha & _ & _ & _ & Ea). rewrite <- Ea, <- D.
    pose proof (Opt_Facts.sort_desc_sorted xm_fit pop0) as St. pose proof (Opt_Facts.sort_desc_perm xm_fit pop0) as Pm.
    apply (Permutation_in _ (Permutation_sym Pm)) in Ha.
    unfold best0 in Et. destruct (Opt_Model.sort_desc xm_fit pop0) as [|t l] eqn:Es; [destruct npop; discriminate|].
    destruct npop as [|np]; [lia|]. cbn [firstn nth_error] in Et. injection Et as <-.
    inversion St as [|? ? _ S2]; subst. destruct Ha as [<-|Ha]; [lra|]. rewrite Forall_forall in S2. apply S2; auto.
Qed.

Lemma px_step (RF : respects fit) (DR : px_draws_ok drs) k st st' : inv k st /\ pxsched k st -> px_gen expf tau tau' pwf m fit p steps drs k st = Some st' -> inv (S k) st' /\ pxsched (S k) st'.
Proof.
  intros (I & A1 & A2 & A3 & A4 & A5 & rest & A6) E.
  destruct (px_gen_ok expf tau tau' pwf m fit p (rx_dims _ _ _ _ RD) (rx_two _ _ _ _ RD) (rx_npop _ _ _ _ RD) pxmu_range steps size (length init) drs DR RF k st st' I E) as (I' & B1 & B2 & B3 & B4 & (new & En) & B5).
  split; auto. split; [lia|]. split. { rewrite B2, A1. cbn [alpha1_at]. f_equal. lia. }
  split. { rewrite B3, A3, A2, seq_S, map_app. reflexivity. }
  split. { rewrite B5, A1, A4. cbn [w1_at]. destruct (p1_mech p1) eqn:Em; auto; try (unfold w1_at; rewrite Em; destruct k; auto). destruct (p1_proc p1) eqn:Ep; auto. }
  split. { rewrite B4, A5, A4, seq_S, map_app. reflexivity. }
  exists (rest ++ new). rewrite En, A6, app_assoc. reflexivity.
Qed.

(** All that is known of a run. *)
Lemma px_run (RF : respects fit) (DR : px_draws_ok drs) r : px_evolute expf tau tau' pwf m fit p attr ngen given drs init = Some r ->
  exists st x y, inv ngen st /\ pxsched ngen st /\ y_best st = Some (x, y) /\ ent m fit (y_heap st) (y_seen st) x y /\ nth_error (y_hist st) (ngen - 1) = Some y /\
  r = PxRes (h_get (y_heap st) x) (as_max m y) (map (as_max m) (y_hist st)) (Some (length (store (y_mem st)))) (y_alphas st) (y_ws st) (y_seen st).
Proof.
  intros E. unfold px_evolute in E. destruct px_start_ok as (st0 & E0 & I0 & S0 & _). rewrite E0 in E. cbn [bind] in E.
  apply bind_Some in E. destruct E as (st & Eg & E).
  apply (gens_nat (px_gen expf tau tau' pwf m fit p steps drs) (fun k st => inv k st /\ pxsched k st)) in Eg; auto; [|intros; eapply px_step; eauto].
  cbn [Nat.add] in Eg. destruct Eg as (I & Sc). destruct (jx_best _ _ _ _ _ _ _ I (rx_gens _ _ _ _ RD)) as (x & y & Eb & Ok & Hl).
  rewrite Eb in E. cbn [bind] in E. injection E as <-. exists st, x, y. auto 10.
Qed.

Lemma px_total : respects fit -> px_draws_ok drs -> (forall q, 0 < expf q)%Q -> p1_mech p1 <> Globw ->
  exists r, px_evolute expf tau tau' pwf m fit p attr ngen given drs init = Some r.
Proof.
  intros RF DR He HG. unfold px_evolute. destruct px_start_ok as (st0 & E0 & I0 & S0 & _). rewrite E0. cbn [bind].
  destruct (gens_nat_total (px_gen expf tau tau' pwf m fit p steps drs) (fun k st => inv k st /\ pxsched k st) ngen 0 st0) as (st & -> & I & _); auto.
  - intros k st _ I.
    destruct (px_gen_total expf tau tau' pwf m fit p (rx_dims _ _ _ _ RD) (rx_two _ _ _ _ RD) (rx_npop _ _ _ _ RD) pxmu_range steps size (length init) drs RF k st He HG (proj1 I)) as (st' & E').
    exists st'. split; auto. eapply px_step; eauto.
  - cbn [bind]. destruct (jx_best _ _ _ _ _ _ _ I) as (x & y & -> & _); [pose proof (rx_gens _ _ _ _ RD); lia|]. cbn [bind]. eauto.
Qed.

Lemma px_report r : respects fit -> px_draws_ok drs -> px_evolute expf tau tau' pwf m fit p attr ngen given drs init = Some r ->
  feasible (p1_dims p1) (px_x r) /\ point_in (px_x r) (px_seen r) /\ (px_y r == fit (px_x r))%Q /\
  Forall (feasible (p1_dims p1)) (px_seen r) /\ length (px_seen r) = px_evals p (length init) ngen /\ firstn (length init) (px_seen r) = map fst init /\
  length (px_hist r) = ngen /\ nth_error (px_hist r) (ngen - 1) = Some (px_y r) /\
  forall i v, nth_error (px_hist r) i = Some v -> exists z, In z (firstn (px_evals p (length init) (S i)) (px_seen r)) /\ (v == fit z)%Q.
Proof.
  intros RF DR E. destruct (px_run RF DR r E) as (st & x & y & I & (_ & _ & _ & _ & _ & rest & Sn) & Eb & (O1 & O2 & O3) & Hl & ->). cbn [px_x px_y px_hist px_seen].
  assert (INV : forall v z, (v == g z)%Q -> (as_max m v == fit z)%Q).
  { intros v z Hv. transitivity (as_max m (g z)); [|apply as_max_invol]. destruct m; simpl; [rewrite Hv; reflexivity|exact Hv]. }
  split; [apply (get_feasible (px_2 p)); auto; apply I|]. split; auto. split; auto. split; [apply I|]. split; [apply I|]. split.
  { rewrite Sn. rewrite firstn_app, map_length, Nat.sub_diag. simpl. rewrite app_nil_r. rewrite <- (map_length fst). apply firstn_all. }
  split; [rewrite map_length; apply I|]. split; [rewrite nth_error_map, Hl; reflexivity|].
  intros i v Hv. rewrite nth_error_map in Hv. destruct (nth_error (y_hist st) i) as [q|] eqn:Eq; [|discriminate]. injection Hv as <-.
  destruct (jx_vals _ _ _ _ _ _ _ I i q Eq) as (z & Hz & Ez). exists z. auto.
Qed.

Lemma px_best r : respects fit -> px_draws_ok drs -> px_evolute expf tau tau' pwf m fit p attr ngen given drs init = Some r ->
  length init + ngen * px_survivors p <= size ->
  (forall i v, nth_error (px_hist r) i = Some v -> forall z, In z (firstn (px_evals p (length init) (S i)) (px_seen r)) -> as_good m v (fit z)) /\
  never_worse m (px_hist r) /\ (forall z, In z (px_seen r) -> as_good m (px_y r) (fit z)).
Proof.
  intros RF DR E Rm. pose proof (px_report r RF DR E) as (R1 & R2 & R3 & R4 & R5 & R6 & R7 & R8 & R9).
  assert (H : forall i v, nth_error (px_hist r) i = Some v -> forall z, In z (firstn (px_evals p (length init) (S i)) (px_seen r)) -> as_good m v (fit z)).
  { destruct (px_run RF DR r E) as (st & x & y & I & _ & Eb & _ & Hl & ->). cbn [px_x px_y px_hist px_seen].
    intros i v Hv z Hz. rewrite nth_error_map in Hv. destruct (nth_error (y_hist st) i) as [q|] eqn:Eq; [|discriminate]. injection Hv as <-.
    destruct (jx_room _ _ _ _ _ _ _ I Rm) as (_ & V). apply as_max_good. rewrite as_max_invol. apply (V i q Eq z Hz). }
  split; auto. pose proof (rx_gens _ _ _ _ RD) as G. split.
  - intros i j a b Hij Ha Hb. destruct (R9 i a Ha) as (z & Hz & Ez).
    assert (X : as_good m b (fit z)).
    { apply (H j b Hb). revert Hz. apply P2_Final.firstn_incl_le. unfold px_evals. nia. }
    destruct m; cbn [as_good] in *; rewrite Ez; exact X.
  - intros z Hz. apply (H _ _ R8). replace (S (ngen - 1)) with ngen by lia. rewrite <- R5, firstn_all. auto.
Qed.

(** The exponents and the inertia weights. *)
Lemma px_schedules r : respects fit -> px_draws_ok drs -> px_evolute expf tau tau' pwf m fit p attr ngen given drs init = Some r ->
  length (px_alphas r) = ngen /\ length (px_ws r) = ngen /\ nth_error (px_alphas r) 0 = Some (p1_alpha0 p1) /\
  (forall i a, nth_error (px_alphas r) (S i) = Some a ->
     (a == p1_alpha0 p1 + (p1_alpha1 p1 - p1_alpha0 p1) * inject_Z (Z.of_nat (1 + S i * npop)) / inject_Z (Z.of_nat (ngen * npop)))%Q) /\
  (forall i w, nth_error (px_ws r) i = Some w -> w = w1_at p1 ngen i).
Proof.
  intros RF DR E. destruct (px_run RF DR r E) as (st & x & y & I & (_ & _ & A3 & _ & A5 & _) & _ & _ & _ & ->). cbn [px_alphas px_ws].
  pose proof (rx_gens _ _ _ _ RD) as G. pose proof (rx_npop _ _ _ _ RD) as N. rewrite A3, A5, !map_length, !seq_length. split; auto. split; auto.
  split. { destruct ngen; [lia|reflexivity]. }
  assert (SP : (0 < inject_Z (Z.of_nat steps))%Q). { change 0%Q with (inject_Z 0). rewrite <- Zlt_Qlt. nia. }
  assert (NT : forall i, i < ngen -> nth_error (seq 0 ngen) i = Some i).
  { intros i Hi. rewrite (nth_error_nth' _ 0) by (rewrite seq_length; auto). rewrite seq_nth; auto. }
  assert (LT : forall (f : nat -> Q) i a, nth_error (map f (seq 0 ngen)) i = Some a -> i < ngen /\ a = f i).
  { intros f i a H. assert (Hi : i < ngen). { rewrite <- (seq_length ngen 0), <- (map_length f). apply nth_error_Some. congruence. }
    split; auto. rewrite nth_error_map, (NT i Hi) in H. injection H as <-. auto. }
  split.
  - intros i a H. apply LT in H. destruct H as (Hi & ->). cbn [alpha1_at]. unfold linear_anneal.
    match goal with |- context [Qle_bool 1 ?t] => destruct (Qle_bool 1 t) eqn:B end.
    + apply Qle_bool_iff in B. exfalso.
      assert (Lt : (inject_Z (Z.of_nat (1 + S i * npop)) < inject_Z (Z.of_nat steps))%Q) by (rewrite <- Zlt_Qlt; nia).
      assert (1 * inject_Z (Z.of_nat steps) <= inject_Z (Z.of_nat (1 + S i * npop)))%Q; [|lra].
      apply (Qmult_le_r _ _ _ SP) in B. eapply Qle_trans; [exact B|]. apply Qle_lteq. right. field. lra.
    + field. lra.
  - intros i w H. apply LT in H. apply H.
Qed.
End Run.
