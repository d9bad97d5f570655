(** PESA2: totality and the report. *)
From Coq Require Import List Arith ZArith QArith Qround Qfield Bool Lia Lqa.
From Verif Require Import Base BaseFacts Space_Model Space_Spec ER_Model Opt_Model Opt_Spec Opt_Facts Opt_Facts2 Pop_Spec Pop_Proofs
  P2_Model P2_Spec P2_Mem P2_DE P2_Proofs.
Import ListNotations.
Open Scope nat_scope.

Section Live.
Context (expf cosf : Q -> Q) (pwf : Q -> Q -> Q) (m : mode) (fit : list Q -> Q) (p : p2_par).
Context (ngen re : nat) (xs : list (list Q)) (attr : option nat) (drs : nat -> p2_draw).
Hypothesis RD : p2_ready p ngen re xs.
Local Notation ds := (p2_dims p).
Local Notation steps := (ngen / re * p2_npop p).

Record live (st : p2_state) : Prop := {
  lv_heap : Forall (feasible ds) (ps_heap st);
  lv_gwo : length (ps_gwo st) = p2_nwolves p /\ Forall (fun r => r < length (ps_heap st)) (ps_gwo st);
  lv_de : length (ps_de st) = p2_npop p /\ Forall (fun r => r < length (ps_heap st)) (ps_de st);
  lv_woa : length (ps_woa st) = p2_nwhales p /\ Forall (fun r => r < length (ps_heap st)) (ps_woa st);
  lv_ring : ring (ps_mem st) /\ store (ps_mem st) <> [];
  lv_mem : forall b, In b (store (ps_mem st)) -> sx b < length (ps_heap st);
  lv_seen : Forall (feasible ds) (ps_seen st) }.

Lemma live_gen g st : live st -> exists st', p2_gen expf cosf pwf m fit p re steps drs g st = Some st' /\ live st' /\
  (exists r y, ps_best st' = Some (r, y) /\ r < length (ps_heap st')).
Proof.
  pose proof RD as [W D N N1 N2 (R0 & R1) (_ & G2 & _) _ _].
  intros [Hh Hg Hd Hw (Rr & Rn) Hm Hs]. unfold p2_gen.
  destruct (gwo_mod_ok expf m fit p W D N N1 N2 (p2_gens (p2_npop p) (p2_nwolves p) * re) (pd_gwo (drs g)) (ps_heap st) (ps_gwo st)) as (h1 & gp & s1 & E1 & D1); try tauto.
  { apply (gens_pos p); auto. }
  rewrite E1. cbn [bind]. pose proof D1 as (Lg & L1 & F1h & Fs1 & Fg & _).
  destruct (de_mod_ok expf m fit p W D N re (pd_de (drs g)) h1 (ps_de st)) as (h2 & dp & s2 & E2 & D2); try tauto.
  { destruct Hd as (_ & Hd). eapply Forall_impl; [|exact Hd]. cbn beta. intros r Hr. lia. }
  rewrite E2. cbn [bind]. pose proof D2 as (Ld & L2 & F2h & Fs2 & Fd & _).
  destruct (woa_mod_ok expf cosf m fit p W D N N1 N2 (p2_gens (p2_npop p) (p2_nwhales p) * re) (pd_woa (drs g)) h2 (ps_woa st)) as (h3 & wp & s3 & E3 & D3); try tauto.
  { apply (gens_pos p); auto. }
  { destruct Hw as (_ & Hw). eapply Forall_impl; [|exact Hw]. cbn beta. intros r Hr. lia. }
  rewrite E3. cbn [bind]. pose proof D3 as (Lw & L3 & F3h & Fs3 & Fw & _).
  set (gs := p2_select gp (p2_mu p (p2_nwolves p))). set (dl := p2_select dp (p2_mu p (p2_npop p))). set (ws := p2_select wp (p2_mu p (p2_nwhales p))).
  pose proof (mu_le p N N1 N2 R1 (p2_nwolves p)) as Mg. pose proof (mu_le p N N1 N2 R1 (p2_npop p)) as Md. pose proof (mu_le p N N1 N2 R1 (p2_nwhales p)) as Mw.
  assert (Lgs : length gs = p2_mu p (p2_nwolves p)) by (unfold gs; rewrite select_len; lia).
  assert (Ldl : length dl = p2_mu p (p2_npop p)) by (unfold dl; rewrite select_len; lia).
  assert (Lws : length ws = p2_mu p (p2_nwhales p)) by (unfold ws; rewrite select_len; lia).
  destruct (update_ok p N N1 N2 h3 (ps_mem st) gs dl ws Rr Rn) as (mem1 & E4 & R4 & S4 & I4 & N4 & L4 & _). rewrite E4. cbn [bind].
  destruct (resample_ok expf cosf pwf p N N1 N2 R1 (ps_alpha st) mem1 (drs g) gs dl ws N4 R4 Lgs Ldl Lws) as (mem2 & ng & nd & nw & E5 & R5 & S5 & L5 & N5 & I5 & Lng & Lnd & Lnw & In5).
  rewrite E5. cbn [bind]. destruct (sample_greedy mem2 1) as [mem3 top] eqn:E6.
  destruct (greedy_spec mem2 N5) as (b & Eb & Em & Ib & Mb). rewrite E6 in Eb, Em. cbn [fst snd] in Eb, Em. rewrite Eb. cbn [bind].
  eexists. split; [reflexivity|]. cbn [ps_best ps_heap].
  assert (All : forall rq : ref * Q, In rq (gs ++ dl ++ ws) -> fst rq < length h3).
  { rewrite Forall_forall in Fg, Fd, Fw. intros rq Hr. rewrite !in_app_iff in Hr.
    destruct Hr as [Hr|[Hr|Hr]]; apply select_in in Hr; [apply Fg in Hr|apply Fd in Hr|apply Fw in Hr]; destruct Hr as (Hr & _).
    - eapply Nat.lt_le_trans; [exact Hr|lia].
    - eapply Nat.lt_le_trans; [exact Hr|lia].
    - exact Hr. }
  assert (Mem1 : forall c, In c (store mem1) -> sx c < length h3).
  { intros c Hc1. destruct (I4 c Hc1) as [Hc2|Hc2]; [apply (All _ Hc2)|]. apply Hm in Hc2. eapply Nat.lt_le_trans; [exact Hc2|lia]. }
  assert (Refs : forall r, In r (ng ++ nd ++ nw) -> r < length h3).
  { intros r Hr. destruct (In5 r Hr) as [Hr'|(c & Hc1 & <-)]; [|auto].
    apply in_map_iff in Hr'. destruct Hr' as (rq & <- & Hr'). auto. }
  split; [|exists (sx b), (obj b); split; auto; apply Mem1, I5; auto].
  constructor; cbn [ps_heap ps_gwo ps_de ps_woa ps_mem ps_seen].
  - exact F3h.
  - split; auto. apply Forall_forall. intros r Hr. apply Refs. rewrite !in_app_iff; auto.
  - split; auto. apply Forall_forall. intros r Hr. apply Refs. rewrite !in_app_iff; auto.
  - split; auto. apply Forall_forall. intros r Hr. apply Refs. rewrite !in_app_iff; auto.
  - rewrite Em. split; [apply ring_sort; auto|]. apply sort_nonempty; auto.
  - intros c Hc1. apply Mem1, I5. rewrite Em, sort_store_in in Hc1. exact Hc1.
  - rewrite !Forall_app. auto.
Qed.

Lemma p2_total : exists r, p2_evolute expf cosf pwf m fit p attr ngen re drs xs = Some r /\
  feasible ds (pq_x r) /\ Forall (feasible ds) (pq_seen r).
Proof.
  unfold p2_evolute. destruct (start_ok m fit p ngen re xs attr RD) as (st0 & E0 & H0 & _). rewrite E0. cbn [bind].
  assert (L0 : live st0). { destruct H0. constructor; auto; [tauto|]. intros b Hb. apply ok_mem in Hb. destruct Hb; auto. }
  pose proof (gens_at_least_one p ngen re xs RD) as G1.
  destruct (gens_nat_total (p2_gen expf cosf pwf m fit p re steps drs)
    (fun k st => live st /\ (1 <= k -> exists r y, ps_best st = Some (r, y) /\ r < length (ps_heap st))) (ngen / re) 0 st0) as (st & E & H & B).
  - intros k st _ (H & _). destruct (live_gen k st H) as (st' & E' & H' & B'). exists st'. auto.
  - split; auto. lia.
  - rewrite E. cbn [bind]. destruct (B G1) as (r & y & Eb & Hr). rewrite Eb. cbn [bind]. eexists. split; [reflexivity|]. cbn [pq_x pq_seen].
    destruct H. split; auto. apply get_feasible; auto.
Qed.

Lemma nth_map_some {X Y} (f : X -> Y) l i v : nth_error (map f l) i = Some v -> exists a, nth_error l i = Some a /\ v = f a.
Proof. revert i. induction l as [|a l IH]; intros [|i] E; simpl in *; try discriminate; [inversion E; eauto|apply IH; auto]. Qed.

Lemma p2_best r : respects fit -> no_sharing_trouble p -> p2_evolute expf cosf pwf m fit p attr ngen re drs xs = Some r ->
  point_in (pq_x r) (pq_seen r) /\ point_in (pq_x r) (offered xs (pq_pops r) (ngen / re)) /\ (pq_y r == fit (pq_x r))%Q /\
  length (pq_hist r) = ngen / re /\ nth_error (pq_hist r) (ngen / re - 1) = Some (pq_y r) /\
  length (pq_pops r) = ngen / re /\
  (forall pop, In pop (pq_pops r) -> length pop = p2_nwolves p + p2_npop p + p2_nwhales p /\
     forall x v, In (x, v) pop -> feasible ds x /\ (v == as_max m (fit x))%Q /\ point_in x (pq_seen r)) /\
  (forall i v, nth_error (pq_hist r) i = Some v -> exists z, In z (offered xs (pq_pops r) (S i)) /\ (v == fit z)%Q) /\
  (forall i v, nth_error (pq_hist r) i = Some v -> nothing_dropped p (p2_size attr steps) (length xs) (S i) ->
     forall z, In z (offered xs (pq_pops r) (S i)) -> as_good m v (fit z)) /\
  pq_alphas r = map (alpha_at p ngen re) (seq 0 (ngen / re)) /\
  (p2_gens (p2_npop p) (p2_nwolves p) * re = 1 -> forall i pop, nth_error (pq_pops r) i = Some pop ->
     forall x q, In (x, q) (firstn (p2_nwolves p) pop) -> point_in x (offered xs (pq_pops r) i)).
Proof.
  intros Rf Sh E. destruct (run_ok expf cosf pwf m fit p ngen re xs attr drs RD Rf Sh) as (st & _ & Er & [Hh Hg Hd Hw Hr Hm Hs (Lp & Lh) Hp Hb Hx Hf Hi Hc] & (A1 & A2 & A3) & Nb).
  unfold p2_evolute in E. destruct (p2_start m fit p attr ngen re xs) as [st0|]; [|discriminate]. cbn [bind] in E, Er. rewrite Er in E. cbn [bind] in E.
  destruct (ps_best st) as [[a y]|]; [|congruence]. cbn [bind] in E. inversion E; subst r; clear E. cbn [pq_x pq_y pq_hist pq_pops pq_seen pq_alphas].
  destruct Hb as ((B1 & B2 & B3 & B4) & B5). split; auto. unfold off in B4. rewrite Lp in B4. split; auto. split.
  { transitivity (as_max m (p2_F1 m fit (h_get (ps_heap st) a))); [|apply as_max_invol].
    destruct m; simpl; [rewrite B2; reflexivity|exact B2]. }
  split; [rewrite map_length; auto|]. split; [rewrite nth_error_map, B5; reflexivity|]. split; auto. split; [exact Hp|]. split; [|split; [|split; [exact A3|exact Hi]]].
  - intros i v Hv. apply nth_map_some in Hv. destruct Hv as (q & Hv & ->). destruct (Hx i q Hv) as ((z & Hz & Ez) & _). exists z. split; auto.
    transitivity (as_max m (p2_F1 m fit z)); [|apply as_max_invol]. destruct m; simpl; [rewrite Ez; reflexivity|exact Ez].
  - intros i v Hv En z Hz. apply nth_map_some in Hv. destruct Hv as (q & Hv & ->). destruct (Hx i q Hv) as (_ & Hx2).
    apply as_max_good. rewrite as_max_invol. apply Hx2; auto.
Qed.

Lemma firstn_incl_le {X} (l : list X) i j : i <= j -> incl (firstn i l) (firstn j l).
Proof.
  revert i j. induction l as [|a l IH]; intros [|i] [|j] H x Hx; simpl in *; auto; try contradiction; try lia.
  destruct Hx as [<-|Hx]; auto. right. eapply IH; [|exact Hx]. lia.
Qed.
Lemma offered_mono pops i j : i <= j -> incl (offered xs pops i) (offered xs pops j).
Proof.
  intros H z Hz. unfold offered in *. rewrite in_app_iff in *. destruct Hz as [Hz|Hz]; auto. right.
  apply in_map_iff in Hz. destruct Hz as (a & <- & Ha). apply in_map. apply in_concat in Ha. destruct Ha as (l & Hl & Ha).
  apply in_concat. exists l. split; auto. eapply firstn_incl_le; eauto.
Qed.
Lemma nothing_mono sz i j : i <= j -> nothing_dropped p sz (length xs) j -> nothing_dropped p sz (length xs) i.
Proof. intros H (A & B). split; auto. nia. Qed.

Lemma p2_mono r : respects fit -> no_sharing_trouble p -> p2_evolute expf cosf pwf m fit p attr ngen re drs xs = Some r ->
  nothing_dropped p (p2_size attr steps) (length xs) (ngen / re) ->
  never_worse m (pq_hist r) /\ (forall z, In z (offered xs (pq_pops r) (ngen / re)) -> as_good m (pq_y r) (fit z)).
Proof.
  intros Rf Sh E Nd. destruct (p2_best r Rf Sh E) as (_ & _ & _ & Lh & Hl & _ & _ & H1 & H2 & _). pose proof (gens_at_least_one p ngen re xs RD) as G. split.
  - intros i j a b Hij Ha Hb. destruct (H1 i a Ha) as (z & Hz & Ez).
    assert (Hj : j < ngen / re). { rewrite <- Lh. apply nth_error_Some. congruence. }
    pose proof (H2 j b Hb (nothing_mono _ (S j) (ngen / re) Hj Nd) z) as X. specialize (X (offered_mono _ (S i) (S j) (le_n_S _ _ Hij) _ Hz)).
    destruct m; cbn [as_good] in *; rewrite Ez; exact X.
  - intros z Hz. pose proof (H2 _ _ Hl) as X. replace (S (ngen / re - 1)) with (ngen / re) in X by lia. apply X; auto.
Qed.

(** The exponents: they start at alpha_init, stay within the range, never decrease, and the one
    used by the last generation has not reached alpha_end yet. *)
Lemma steps_pos : (0 < inject_Z (Z.of_nat steps))%Q.
Proof.
  pose proof (gens_at_least_one p ngen re xs RD). pose proof (rd_npop _ _ _ _ RD). change 0%Q with (inject_Z 0). rewrite <- Zlt_Qlt. nia.
Qed.

Lemma alpha_step i : 1 <= i < ngen / re -> exists t, (0 < t /\ t < 1)%Q /\ (t * inject_Z (Z.of_nat steps) == inject_Z (Z.of_nat (1 + i * p2_npop p)))%Q /\
  (alpha_at p ngen re i == p2_alpha0 p + t * (p2_alpha1 p - p2_alpha0 p))%Q.
Proof.
  intros Hi. pose proof steps_pos as SP. pose proof (rd_npop _ _ _ _ RD) as N.
  set (t := (inject_Z (Z.of_nat (1 + i * p2_npop p)) / inject_Z (Z.of_nat steps))%Q).
  assert (Et : (t * inject_Z (Z.of_nat steps) == inject_Z (Z.of_nat (1 + i * p2_npop p)))%Q) by (unfold t; field; lra).
  assert (Lt : (inject_Z (Z.of_nat (1 + i * p2_npop p)) < inject_Z (Z.of_nat steps))%Q) by (rewrite <- Zlt_Qlt; nia).
  assert (Lp : (0 < inject_Z (Z.of_nat (1 + i * p2_npop p)))%Q) by (change 0%Q with (inject_Z 0); rewrite <- Zlt_Qlt; lia).
  assert (T1 : (t < 1)%Q) by nra. assert (T0 : (0 < t)%Q) by nra.
  exists t. split; auto. split; auto. destruct i as [|i]; [lia|]. cbn [alpha_at]. unfold linear_anneal. fold t.
  destruct (Qle_bool 1 t) eqn:B; [apply Qle_bool_iff in B; lra|reflexivity].
Qed.

Lemma alpha_zero : 1 <= ngen / re -> exists t, (0 <= t /\ t < 1)%Q /\ (alpha_at p ngen re 0 == p2_alpha0 p + t * (p2_alpha1 p - p2_alpha0 p))%Q.
Proof. intros _. exists 0%Q. split; [lra|]. cbn [alpha_at]. ring. Qed.

Lemma alphas_range i : i < ngen / re -> (p2_alpha0 p < p2_alpha1 p)%Q -> (p2_alpha0 p <= alpha_at p ngen re i /\ alpha_at p ngen re i < p2_alpha1 p)%Q.
Proof.
  intros Hi Ha. destruct i as [|i]; [cbn [alpha_at]; lra|]. destruct (alpha_step (S i)) as (t & (T0 & T1) & _ & E); [lia|]. rewrite E. split; nra.
Qed.
Lemma alphas_mono i j : i <= j -> j < ngen / re -> (p2_alpha0 p < p2_alpha1 p)%Q -> (alpha_at p ngen re i <= alpha_at p ngen re j)%Q.
Proof.
  intros Hij Hj Ha. destruct i as [|i]; [apply alphas_range; auto|]. destruct j as [|j]; [lia|].
  destruct (alpha_step (S i)) as (t & (T0 & T1) & Et & ->); [lia|]. destruct (alpha_step (S j)) as (u & (U0 & U1) & Eu & ->); [lia|].
  pose proof steps_pos as SP.
  assert (Le : (inject_Z (Z.of_nat (1 + S i * p2_npop p)) <= inject_Z (Z.of_nat (1 + S j * p2_npop p)))%Q) by (rewrite <- Zle_Qle; nia).
  assert (t <= u)%Q. { destruct (Qlt_le_dec u t) as [C|C]; auto. nra. } nra.
Qed.
End Live.
