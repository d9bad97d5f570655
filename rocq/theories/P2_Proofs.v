(** Invariants of a PESA2 run. *)
From Coq Require Import List Arith ZArith QArith Qround Bool Lia Lqa Permutation Sorted.
From Verif Require Import Base BaseFacts Space_Model Space_Spec Space_Facts ER_Model Opt_Model Opt_Spec Opt_Facts Opt_Facts2 Pop_Model Pop_Spec Pop_Proofs
  Swarm_Model Swarm_Proofs GWO_Model GWO_Proofs DE_Model DE_Proofs P2_Model P2_Spec P2_Mem P2_DE.
Import ListNotations.
Open Scope nat_scope.

Lemma point_in_self x l : In x l -> point_in x l.
Proof. intros H. exists x. split; auto. apply veq_refl. Qed.
Lemma point_in_mono x l l' : incl l l' -> point_in x l -> point_in x l'.
Proof. intros I (z & Hz & E). exists z. auto. Qed.
Lemma point_in_veq x y l : Forall2 Qeq x y -> point_in x l -> point_in y l.
Proof. intros E (z & Hz & E'). exists z. split; auto. eapply veq_trans; eauto. Qed.

Lemma select_in pop k rq : In rq (p2_select pop k) -> In rq pop.
Proof.
  intros H. unfold p2_select in H. apply in_firstn in H. eapply Permutation_in; [apply Opt_Facts.sort_desc_perm|exact H].
Qed.
Lemma select_len pop k : length (p2_select pop k) = Nat.min k (length pop).
Proof. unfold p2_select. rewrite firstn_length, Opt_Facts.sort_desc_length. reflexivity. Qed.
Lemma select_best pop k rq : 1 <= k -> In rq pop -> exists b, In b (p2_select pop k) /\ (snd rq <= snd b)%Q.
Proof.
  intros Hk H. unfold p2_select. pose proof (Opt_Facts.sort_desc_sorted snd pop) as St.
  assert (H' : In rq (Opt_Model.sort_desc snd pop)) by (eapply Permutation_in; [symmetry; apply Opt_Facts.sort_desc_perm|exact H]).
  destruct (Opt_Model.sort_desc snd pop) as [|b r]; [destruct H'|]. destruct k as [|k]; [lia|]. cbn [firstn].
  exists b. split; [left; auto|]. inversion St as [|? ? S1 S2]; subst. destruct H' as [<-|H']; [lra|]. rewrite Forall_forall in S2. apply S2; auto.
Qed.

Section P.
Context (expf cosf : Q -> Q) (pwf : Q -> Q -> Q) (m : mode) (fit : list Q -> Q) (p : p2_par).
Local Notation ds := (p2_dims p).
Local Notation F1 := (p2_F1 m fit).
Hypothesis W : wf_dims ds.
Hypothesis D : discrete_ok (p2_method p) ds.
Hypothesis N : 4 < p2_npop p.
Hypothesis N1 : 1 <= p2_nwolves p.
Hypothesis N2 : 1 <= p2_nwhales p.
Hypothesis R0 : (0 <= p2_R p)%Q.
Hypothesis R1 : (p2_R p <= 1)%Q.

Lemma mu_le n : p2_mu p n <= n.
Proof.
  unfold p2_mu. assert (H : (Qfloor (p2_R p * inject_Z (Z.of_nat n)) <= Z.of_nat n)%Z).
  { rewrite <- (Qfloor_Z (Z.of_nat n)) at 2. apply Qfloor_resp_le.
    assert (0 <= inject_Z (Z.of_nat n))%Q by (change 0%Q with (inject_Z 0); rewrite <- Zle_Qle; lia). nra. }
  lia.
Qed.

Lemma new_delivers n h vs fs s : Forall2 (fun x q => (q == F1 x)%Q /\ In x s) vs fs -> length vs = n -> Forall (feasible ds) h ->
  Forall (feasible ds) s -> delivers m fit p n h (h ++ vs) (combine (seq (length h) (length vs)) fs) s.
Proof.
  intros F L Fh Fs. unfold delivers. assert (Lf : length vs = length fs) by (clear - F; induction F; simpl; auto).
  split; [rewrite combine_length, seq_length; lia|]. split; [rewrite app_length; lia|]. split.
  { apply Forall_app. split; auto. rewrite Forall_forall in Fs |- *. intros x Hx. apply Fs.
    clear - F Hx. induction F; [destruct Hx|]. destruct Hx as [<-|Hx]; auto. tauto. }
  split; auto. split; [|intros _; apply old_app].
  pose proof (combine_Forall2 _ _ _ (new_Forall2 p N _ h _ _ F)) as G. exact G.
Qed.

Lemma refs_feasible h (x0 : list ref) : Forall (feasible ds) h -> Forall (fun r => r < length h) x0 -> Forall (feasible ds) (map (h_get h) x0).
Proof. intros F R. rewrite Forall_forall in R |- *. intros x Hx. apply in_map_iff in Hx. destruct Hx as (r & <- & Hr). eapply get_feasible; eauto. Qed.

Lemma gwo_mod_ok ngen drs h (x0 : list ref) : 1 <= ngen -> length x0 = p2_nwolves p -> Forall (fun r => r < length h) x0 -> Forall (feasible ds) h ->
  exists h' pop s, gwo_mod expf m fit p ngen drs h x0 = Some (h', pop, s) /\ delivers m fit p (p2_nwolves p) h h' pop s.
Proof.
  intros Hn L R F. unfold gwo_mod. rewrite L, Nat.eqb_refl. cbn [negb].
  assert (G : good_init ds (p2_nwolves p) (map (h_get h) x0)) by (split; [rewrite map_length; auto|apply refs_feasible; auto]).
  destruct (gwo_total expf Mmax F1 ds (p2_method p) W D (p2_nwolves p) N1 ngen None drs _ G) as (r & E); [lia|discriminate|].
  rewrite E. cbn [bind]. unfold h_new. do 3 eexists. split; [reflexivity|].
  destruct (gwo_best_ok expf Mmax F1 ds (p2_method p) W D (p2_nwolves p) N1 ngen None drs _ r G E) as ((_ & Fl & _ & _ & (early & El) & _ & _ & _ & _ & Lp & Fp) & _).
  apply new_delivers; auto. rewrite El. clear - Fp.
  assert (X : forall l, incl (gr_pop r) l -> Forall2 (fun x q => (q == F1 x)%Q /\ In x l) (gr_pop r) (gr_pf r)).
  { intros l Hl. induction Fp; constructor; [split; auto; apply Hl; left; auto|]. apply IHFp. intros z Hz. apply Hl. right; auto. }
  apply X. intros z Hz. apply in_app_iff; auto.
Qed.

Lemma gwo_mod_one drs h (x0 : list ref) h' pop s : Forall (fun r => r < length h) x0 -> Forall (feasible ds) h ->
  gwo_mod expf m fit p 1 drs h x0 = Some (h', pop, s) ->
  map (fun rq => h_get h' (fst rq)) pop = map (h_get h) x0 /\ s = map (h_get h) x0.
Proof.
  intros R F E. unfold gwo_mod in E. destruct (length x0 =? p2_nwolves p) eqn:L; [|discriminate]. apply Nat.eqb_eq in L. cbn [negb] in E.
  assert (G : good_init ds (p2_nwolves p) (map (h_get h) x0)) by (split; [rewrite map_length; auto|apply refs_feasible; auto]).
  destruct (gwo_evolute expf Mmax F1 ds (p2_method p) 1 None drs (map (h_get h) x0)) as [r|] eqn:Er; [|discriminate]. cbn [bind] in E. unfold h_new in E.
  injection E as E1 E2 E3. subst h' pop s.
  destruct (gwo_best_ok expf Mmax F1 ds (p2_method p) W D (p2_nwolves p) N1 1 None drs _ r G Er) as ((_ & _ & Ll & (rest & Ei) & (early & El) & _ & _ & _ & _ & Lp & Fp) & _).
  replace (p2_nwolves p * (1 + 1 - 1)) with (p2_nwolves p) in Ll by lia.
  assert (rest = []). { apply (f_equal (@length _)) in Ei. rewrite app_length, map_length in Ei. destruct rest; auto. simpl in Ei. lia. }
  assert (early = []). { apply (f_equal (@length _)) in El. rewrite app_length in El. destruct early; auto. simpl in El. lia. }
  subst rest early. rewrite app_nil_r in Ei. cbn [app] in El. split; [|exact Ei].
  transitivity (gr_pop r); [|congruence].
  assert (Lf : length (gr_pop r) = length (gr_pf r)) by (clear - Fp; induction Fp; simpl; auto).
  clear - Lf. generalize (gr_pf r) Lf. generalize (gr_pop r) as vs. clear.
  intros vs. revert h. induction vs as [|v vs IH]; intros h fs Lf; destruct fs as [|f fs]; try discriminate; simpl; auto.
  f_equal.
  - unfold h_get. rewrite app_nth2, Nat.sub_diag by lia. reflexivity.
  - specialize (IH (h ++ [v]) fs). rewrite <- app_assoc in IH. cbn [app] in IH. rewrite app_length in IH. simpl in IH.
    rewrite Nat.add_1_r in IH. apply IH. simpl in Lf. lia.
Qed.

Lemma woa_mod_ok ngen drs h (x0 : list ref) : 1 <= ngen -> length x0 = p2_nwhales p -> Forall (fun r => r < length h) x0 -> Forall (feasible ds) h ->
  exists h' pop s, woa_mod expf cosf m fit p ngen drs h x0 = Some (h', pop, s) /\ delivers m fit p (p2_nwhales p) h h' pop s.
Proof.
  intros Hn L R F. unfold woa_mod. rewrite L, Nat.eqb_refl. cbn [negb].
  assert (G : good_init ds (p2_nwhales p) (map (h_get h) x0)) by (split; [rewrite map_length; auto|apply refs_feasible; auto]).
  destruct (woa_total expf cosf Mmax F1 ds (p2_method p) W D (p2_nwhales p) N2 2 1 ngen None None drs _ G) as (r & E); [lia|discriminate|discriminate|].
  rewrite E. cbn [bind]. unfold h_new. do 3 eexists. split; [reflexivity|].
  destruct (woa_best expf cosf Mmax F1 ds (p2_method p) W D (p2_nwhales p) N2 2 1 ngen None None drs _ r G E) as ((_ & Fl & _ & _ & (early & El) & _ & _ & _ & _ & Lp & Fp) & _).
  apply new_delivers; auto. rewrite El. clear - Fp.
  assert (X : forall l, incl (pr_pop r) l -> Forall2 (fun x q => (q == F1 x)%Q /\ In x l) (pr_pop r) (pr_pf r)).
  { intros l Hl. induction Fp; constructor; [split; auto; apply Hl; left; auto|]. apply IHFp. intros z Hz. apply Hl. right; auto. }
  apply X. intros z Hz. apply in_app_iff; auto.
Qed.

(** Adding batches. *)
Lemma p2_add_ok h (mem : p2_mem) l (pop : list (ref * Q)) : ring mem -> exists mem', p2_add h mem l pop = Some mem' /\ ring mem' /\ msize mem' = msize mem /\
  (forall b, In b (store mem') -> In (sx b, obj b) pop \/ In b (store mem)) /\ (store mem <> [] \/ pop <> [] -> store mem' <> []) /\
  length (store mem') <= length pop + length (store mem) /\
  (length pop + length (store mem) <= msize mem ->
     incl (store mem) (store mem') /\ forall rq, In rq pop -> exists b, In b (store mem') /\ (obj b == snd rq)%Q).
Proof.
  intros R. unfold p2_add, add_batch. rewrite zip_batch_combine.
  destruct (add_all_spec (fun a b => vec_eqb (h_get h a) (h_get h b)) label_eqb (map (fun rq => (fst rq, snd rq, Some l)) pop) mem R)
    as (m' & E & R' & S' & I & Ne & L & K).
  exists m'. rewrite E. rewrite map_length in *. split; auto. split; auto. split; auto. split.
  { intros b Hb. destruct (I b Hb) as [H|H]; auto. left. apply in_map_iff in H. destruct H as ([r q] & <- & H). auto. }
  split. { intros [H|H]; apply Ne; auto. right. destruct pop; [congruence|discriminate]. }
  split; auto. intros Hc. destruct (K Hc) as (K1 & K2). split; auto. intros rq Hrq.
  destruct (K2 (fst rq, snd rq, Some l)) as (b & Hb & Eb). { apply in_map_iff. exists rq. auto. } exists b. auto.
Qed.

Lemma update_ok h (mem : p2_mem) (g d w : list (ref * Q)) : ring mem -> store mem <> [] -> exists mem', p2_memory_update h mem g d w = Some mem' /\ ring mem' /\ msize mem' = msize mem /\
  (forall b, In b (store mem') -> In (sx b, obj b) (g ++ d ++ w) \/ In b (store mem)) /\ store mem' <> [] /\
  length (store mem') <= length (g ++ d ++ w) + length (store mem) /\
  (length (g ++ d ++ w) + length (store mem) <= msize mem ->
     incl (store mem) (store mem') /\ forall rq, In rq (g ++ d ++ w) -> exists b, In b (store mem') /\ (obj b == snd rq)%Q).
Proof.
  intros R Ne. unfold p2_memory_update.
  destruct (p2_add_ok h mem Lgwo g R) as (m1 & E1 & R1' & S1 & I1 & Ne1 & L1 & K1). rewrite E1. cbn [bind].
  destruct (p2_add_ok h m1 Lde d R1') as (m2 & E2 & R2 & S2 & I2 & Ne2 & L2 & K2). rewrite E2. cbn [bind].
  destruct (p2_add_ok h m2 Lwoa w R2) as (m3 & E3 & R3 & S3 & I3 & Ne3 & L3 & K3). rewrite E3.
  exists m3. split; auto. split; auto. split; [congruence|]. split.
  { intros b Hb. rewrite !in_app_iff. destruct (I3 b Hb) as [H|H]; auto. destruct (I2 b H) as [H'|H']; auto. destruct (I1 b H') as [H2|H2]; auto. }
  split; [apply Ne3; left; apply Ne2; left; apply Ne1; left; exact Ne|]. rewrite !app_length. split; [lia|]. intros Hc.
  destruct K1 as (K1 & B1); [lia|]. destruct K2 as (K2 & B2); [lia|]. destruct K3 as (K3 & B3); [lia|].
  split; [intros z Hz; auto|]. intros rq H. rewrite !in_app_iff in H. destruct H as [H|[H|H]].
  - destruct (B1 _ H) as (b & Hb & Eb). exists b. auto.
  - destruct (B2 _ H) as (b & Hb & Eb). exists b. auto.
  - destruct (B3 _ H) as (b & Hb & Eb). exists b. auto.
Qed.

Lemma replay_ok alpha (mem : p2_mem) k draw : store mem <> [] -> exists rs, p2_replay pwf alpha mem k draw = Some (sort_store mem, rs) /\
  length rs = k /\ forall r, In r rs -> exists b, In b (store mem) /\ sx b = r.
Proof.
  intros Ne. unfold p2_replay.
  destruct (prior_spec (fun x => pwf x alpha) mem (map (fun i => draw i mod length (store mem)) (seq 0 k)) Ne) as (l & E & L & I).
  { intros i Hi. apply in_map_iff in Hi. destruct Hi as (j & <- & _). apply Nat.mod_upper_bound. destruct (store mem); [congruence|discriminate]. }
  rewrite E. cbn [bind]. exists (map sx l). split; auto. rewrite !map_length, seq_length in L. split; [rewrite map_length; exact L|].
  intros r Hr. apply in_map_iff in Hr. destruct Hr as (b & Eb & Hb). exists b. auto.
Qed.

Lemma sort_nonempty (mem : p2_mem) : store mem <> [] -> store (sort_store mem) <> [].
Proof. intros H E. apply H. apply (f_equal (@length _)) in E. rewrite sort_store_len in E. destruct (store mem); auto. discriminate. Qed.

Lemma resample_ok alpha (mem : p2_mem) dr (g d w : list (ref * Q)) : store mem <> [] -> ring mem ->
  length g = p2_mu p (p2_nwolves p) -> length d = p2_mu p (p2_npop p) -> length w = p2_mu p (p2_nwhales p) ->
  exists mem' ng nd nw, p2_resample pwf p alpha mem dr g d w = Some (mem', (ng, nd, nw)) /\ ring mem' /\ msize mem' = msize mem /\
    length (store mem') = length (store mem) /\ store mem' <> [] /\
    (forall b, In b (store mem') <-> In b (store mem)) /\
    length ng = p2_nwolves p /\ length nd = p2_npop p /\ length nw = p2_nwhales p /\
    (forall r, In r (ng ++ nd ++ nw) -> In r (map fst (g ++ d ++ w)) \/ exists b, In b (store mem) /\ sx b = r).
Proof.
  intros Ne Rg Lg Ld Lw. unfold p2_resample.
  destruct (replay_ok alpha mem (p2_nwolves p - p2_mu p (p2_nwolves p)) (pd_rgwo dr) Ne) as (rg & E1 & L1 & I1). rewrite E1. cbn [bind].
  destruct (replay_ok alpha (sort_store mem) (p2_npop p - p2_mu p (p2_npop p)) (pd_rde dr) (sort_nonempty _ Ne)) as (rd & E2 & L2 & I2). rewrite E2. cbn [bind].
  destruct (replay_ok alpha (sort_store (sort_store mem)) (p2_nwhales p - p2_mu p (p2_nwhales p)) (pd_rwoa dr) (sort_nonempty _ (sort_nonempty _ Ne))) as (rw & E3 & L3 & I3).
  rewrite E3. cbn [bind]. do 4 eexists. split; [reflexivity|].
  split; [do 3 apply ring_sort; auto|]. split; [reflexivity|]. split; [rewrite !sort_store_len; auto|]. split; [do 3 apply sort_nonempty; auto|].
  split; [intros b; rewrite !sort_store_in; tauto|].
  pose proof (mu_le (p2_nwolves p)). pose proof (mu_le (p2_npop p)). pose proof (mu_le (p2_nwhales p)).
  split; [rewrite app_length, map_length; lia|]. split; [rewrite app_length, map_length; lia|]. split; [rewrite app_length, map_length; lia|].
  intros r Hr. rewrite !map_app. rewrite !in_app_iff in *. destruct Hr as [[H2|H2]|[[H2|H2]|[H2|H2]]]; auto; right.
  - destruct (I2 _ H2) as (b & Hb & Eb). rewrite sort_store_in in Hb. eauto.
  - destruct (I3 _ H2) as (b & Hb & Eb). rewrite !sort_store_in in Hb. eauto.
Qed.

(** The run. *)
Context (xs : list (list Q)) (sz : nat) (re steps : nat).
Hypothesis RE : 1 <= re.
Hypothesis Resp : respects fit.
Hypothesis Sh : no_sharing_trouble p.

Lemma F1_veq x y : Forall2 Qeq x y -> (F1 x == F1 y)%Q.
Proof. intros H. unfold p2_F1. destruct m; simpl; rewrite (Resp _ _ H); reflexivity. Qed.

Definition off (st : p2_state) : list (list Q) := offered xs (ps_pops st) (length (ps_pops st)).
Definition entry_ok (h : heap) (seen of : list (list Q)) (r : ref) (q : Q) : Prop :=
  r < length h /\ (q == F1 (h_get h r))%Q /\ point_in (h_get h r) seen /\ point_in (h_get h r) of.
Local Notation enough k := (nothing_dropped p sz (length xs) k).
Definition exact_hist (pops : list (list (list Q * Q))) (h : list Q) : Prop :=
  forall i v, nth_error h i = Some v ->
    (exists z, In z (offered xs pops (S i)) /\ (v == F1 z)%Q) /\
    (enough (S i) -> forall z, In z (offered xs pops (S i)) -> (F1 z <= v)%Q).

Record st_ok (k : nat) (st : p2_state) : Prop := {
  ok_heap : Forall (feasible ds) (ps_heap st);
  ok_gwo : length (ps_gwo st) = p2_nwolves p /\ Forall (fun r => r < length (ps_heap st)) (ps_gwo st);
  ok_de : length (ps_de st) = p2_npop p /\ Forall (fun r => r < length (ps_heap st)) (ps_de st);
  ok_woa : length (ps_woa st) = p2_nwhales p /\ Forall (fun r => r < length (ps_heap st)) (ps_woa st);
  ok_ring : ring (ps_mem st) /\ msize (ps_mem st) = sz /\ store (ps_mem st) <> [];
  ok_mem : forall b, In b (store (ps_mem st)) -> entry_ok (ps_heap st) (ps_seen st) (off st) (sx b) (obj b);
  ok_seen : Forall (feasible ds) (ps_seen st);
  ok_len : length (ps_pops st) = k /\ length (ps_hist st) = k;
  ok_pops : forall pop, In pop (ps_pops st) -> length pop = p2_nwolves p + p2_npop p + p2_nwhales p /\
     forall x q, In (x, q) pop -> feasible ds x /\ (q == F1 x)%Q /\ point_in x (ps_seen st);
  ok_best : match ps_best st with
            | None => k = 0
            | Some (r, y) => entry_ok (ps_heap st) (ps_seen st) (off st) r y /\ nth_error (ps_hist st) (k - 1) = Some y
            end;
  ok_hist : exact_hist (ps_pops st) (ps_hist st);
  ok_from : forall r, In r (ps_gwo st) -> point_in (h_get (ps_heap st) r) (off st);
  ok_idle : p2_gens (p2_npop p) (p2_nwolves p) * re = 1 -> forall i pop, nth_error (ps_pops st) i = Some pop ->
     forall x q, In (x, q) (firstn (p2_nwolves p) pop) -> point_in x (offered xs (ps_pops st) i);
  ok_cap : enough k -> length (store (ps_mem st)) <= length xs + k * survivors p /\
     forall z, In z (off st) -> exists b, In b (store (ps_mem st)) /\ (F1 z <= obj b)%Q
}.

Lemma entry_mono h h' seen seen' of of' r q : length h <= length h' -> old_kept h h' -> incl seen seen' -> incl of of' ->
  entry_ok h seen of r q -> entry_ok h' seen' of' r q.
Proof.
  intros L K I1 I2 (A & B & C & E). split; [lia|]. specialize (K r A). split.
  { rewrite B. apply F1_veq; auto. }
  split; (eapply point_in_veq; [exact K|]); eapply point_in_mono; eauto.
Qed.

Lemma gens_pos n k : 1 <= n -> 1 <= p2_gens k n * re.
Proof. intros _. unfold p2_gens. pose proof (Nat.le_max_l 1 (k / n)). nia. Qed.

Lemma offered_all pops k : length pops <= k -> offered xs pops k = xs ++ map fst (concat pops).
Proof. intros H. unfold offered. rewrite firstn_all2 by lia. reflexivity. Qed.
Lemma offered_old pops x k : k <= length pops -> offered xs (pops ++ [x]) k = offered xs pops k.
Proof. intros H. unfold offered. rewrite firstn_app. replace (k - length pops) with 0 by lia. rewrite firstn_O, app_nil_r. reflexivity. Qed.
Lemma offered_snoc pops x : offered xs (pops ++ [x]) (length (pops ++ [x])) = offered xs pops (length pops) ++ map fst x.
Proof.
  rewrite !offered_all by lia. rewrite concat_app. cbn [concat]. rewrite app_nil_r, map_app, app_assoc. reflexivity.
Qed.

Lemma delivered n h h' h'' pop s : delivers m fit p n h h' pop s -> length h' <= length h'' -> old_kept h' h'' ->
  forall rq, In rq pop -> fst rq < length h'' /\ (snd rq == F1 (h_get h'' (fst rq)))%Q /\ point_in (h_get h'' (fst rq)) s.
Proof.
  intros (_ & _ & _ & _ & F & _) L K rq H. rewrite Forall_forall in F. destruct (F rq H) as (A & B & C). specialize (K _ A).
  split; [eapply Nat.lt_le_trans; [exact A|exact L]|]. split; [rewrite B; apply F1_veq; auto|]. exists (h_get h' (fst rq)). auto.
Qed.

Lemma p2_gen_ok drs g k st : st_ok k st -> exists st', p2_gen expf cosf pwf m fit p re steps drs g st = Some st' /\ st_ok (S k) st' /\
  ps_step st' = ps_step st + p2_npop p /\ ps_alpha st' = linear_anneal (ps_step st + p2_npop p) steps (p2_alpha0 p) (p2_alpha1 p) /\
  ps_alphas st' = ps_alphas st ++ [ps_alpha st] /\ ps_best st' <> None.
Proof.
  intros [Hh Hg Hd Hw (Rr & Rs & Rn) Hm Hs (Lp & Lh) Hp Hb Hx Hf Hidle Hc]. unfold p2_gen.
  destruct (gwo_mod_ok (p2_gens (p2_npop p) (p2_nwolves p) * re) (pd_gwo (drs g)) (ps_heap st) (ps_gwo st)) as (h1 & gp & s1 & E1 & D1); try tauto.
  { apply gens_pos; auto. }
  rewrite E1. cbn [bind]. pose proof D1 as (Lg & L1 & F1h & Fs1 & Fg & K1). specialize (K1 Sh).
  destruct (de_mod_ok expf m fit p W D N re (pd_de (drs g)) h1 (ps_de st)) as (h2 & dp & s2 & E2 & D2); try tauto.
  { destruct Hd as (_ & Hd). eapply Forall_impl; [|exact Hd]. cbn beta. intros r Hr. lia. }
  rewrite E2. cbn [bind]. pose proof D2 as (Ld & L2 & F2h & Fs2 & Fd & K2). specialize (K2 Sh).
  destruct (woa_mod_ok (p2_gens (p2_npop p) (p2_nwhales p) * re) (pd_woa (drs g)) h2 (ps_woa st)) as (h3 & wp & s3 & E3 & D3); try tauto.
  { apply gens_pos; auto. }
  { destruct Hw as (_ & Hw). eapply Forall_impl; [|exact Hw]. cbn beta. intros r Hr. lia. }
  rewrite E3. cbn [bind]. pose proof D3 as (Lw & L3 & F3h & Fs3 & Fw & K3). specialize (K3 Sh).
  set (gs := p2_select gp (p2_mu p (p2_nwolves p))). set (dl := p2_select dp (p2_mu p (p2_npop p))). set (ws := p2_select wp (p2_mu p (p2_nwhales p))).
  pose proof (mu_le (p2_nwolves p)) as Mg. pose proof (mu_le (p2_npop p)) as Md. pose proof (mu_le (p2_nwhales p)) as Mw.
  assert (Lgs : length gs = p2_mu p (p2_nwolves p)) by (unfold gs; rewrite select_len; lia).
  assert (Ldl : length dl = p2_mu p (p2_npop p)) by (unfold dl; rewrite select_len; lia).
  assert (Lws : length ws = p2_mu p (p2_nwhales p)) by (unfold ws; rewrite select_len; lia).
  destruct (update_ok h3 (ps_mem st) gs dl ws Rr Rn) as (mem1 & E4 & R4 & S4 & I4 & N4 & L4 & C4). rewrite E4. cbn [bind].
  destruct (resample_ok (ps_alpha st) mem1 (drs g) gs dl ws N4 R4 Lgs Ldl Lws) as (mem2 & ng & nd & nw & E5 & R5 & S5 & L5 & N5 & I5 & Lng & Lnd & Lnw & In5).
  rewrite E5. cbn [bind]. destruct (sample_greedy mem2 1) as [mem3 top] eqn:E6.
  destruct (greedy_spec mem2 N5) as (b & Eb & Em & Ib & Mb). rewrite E6 in Eb, Em. cbn [fst snd] in Eb, Em. rewrite Eb. cbn [bind].
  eexists. split; [reflexivity|]. cbn [ps_step ps_alpha ps_alphas ps_best]. split; [|split; [reflexivity|split; [reflexivity|split; [reflexivity|discriminate]]]].
  set (val := fun rq : ref * Q => (h_get h3 (fst rq), snd rq)). fold val.
  set (npop := map val gp ++ map val dp ++ map val wp).
  set (seen' := ps_seen st ++ s1 ++ s2 ++ s3).
  set (of' := offered xs (ps_pops st ++ [npop]) (length (ps_pops st ++ [npop]))).
  assert (Eof : of' = off st ++ map fst npop) by apply offered_snoc.
  assert (K13 : old_kept (ps_heap st) h3). { eapply old_trans; [|eapply old_trans; [|exact K1|exact K2]|exact K3]; lia. }
  assert (K23 : old_kept h1 h3). { eapply old_trans; [|exact K2|exact K3]. lia. }
  (* every delivered member *)
  assert (All : forall rq, In rq (gp ++ dp ++ wp) -> fst rq < length h3 /\ (snd rq == F1 (h_get h3 (fst rq)))%Q /\ point_in (h_get h3 (fst rq)) seen').
  { assert (Z1 := delivered _ _ _ h3 _ _ D1 ltac:(lia) K23). assert (Z2 := delivered _ _ _ h3 _ _ D2 L3 K3). assert (Z3 := delivered _ _ _ h3 _ _ D3 (le_n _) (old_refl _)).
    intros rq Hr. rewrite !in_app_iff in Hr.
    destruct Hr as [Hr|[Hr|Hr]]; [destruct (Z1 _ Hr) as (A & B & C)|destruct (Z2 _ Hr) as (A & B & C)|destruct (Z3 _ Hr) as (A & B & C)]; (split; [auto|split; [auto|]]);
      (eapply point_in_mono; [|exact C]); intros z Hz; unfold seen'; rewrite !in_app_iff; auto. }
  assert (Allv : forall rq, In rq (gp ++ dp ++ wp) -> In (h_get h3 (fst rq)) (map fst npop)).
  { intros rq Hr. apply in_map_iff. exists (val rq). split; auto. unfold npop. rewrite <- !map_app. apply in_map. auto. }
  assert (Ent : forall rq, In rq (gp ++ dp ++ wp) -> entry_ok h3 seen' of' (fst rq) (snd rq)).
  { intros rq Hr. destruct (All _ Hr) as (A & B & C). split; auto. split; auto. split; auto. apply point_in_self. rewrite Eof. apply in_app_iff. right. auto. }
  assert (Sel : forall rq, In rq (gs ++ dl ++ ws) -> In rq (gp ++ dp ++ wp)).
  { intros rq Hr. rewrite !in_app_iff in *. destruct Hr as [Hr|[Hr|Hr]]; apply select_in in Hr; auto. }
  assert (Mem1 : forall c, In c (store mem1) -> entry_ok h3 seen' of' (sx c) (obj c)).
  { intros c Hc1. destruct (I4 c Hc1) as [Hc2|Hc2]; [apply (Ent (sx c, obj c)), Sel; auto|].
    eapply entry_mono; [| |  | |apply Hm; exact Hc2]; auto; [lia| |]; intros z Hz; [unfold seen'|rewrite Eof]; apply in_app_iff; auto. }
  assert (Mem3 : forall c, In c (store mem3) <-> In c (store mem1)). { intros c. rewrite Em, sort_store_in, I5. tauto. }
  assert (Refs : forall r, In r (ng ++ nd ++ nw) -> r < length h3).
  { intros r Hr. destruct (In5 r Hr) as [Hr'|(c & Hc1 & <-)]; [|destruct (Mem1 c Hc1); auto].
    apply in_map_iff in Hr'. destruct Hr' as (rq & <- & Hr'). destruct (All rq (Sel _ Hr')); auto. }
  assert (Eb' : entry_ok h3 seen' of' (sx b) (obj b)). { apply Mem1. apply I5; auto. }
  assert (Cap : enough (S k) -> length (store mem1) <= length xs + S k * survivors p /\
     forall z, In z of' -> exists c, In c (store mem1) /\ (F1 z <= obj c)%Q).
  { intros (C1 & M1 & M2 & M3). destruct Hc as (Hc1 & Hc2). { split; [|auto]. unfold survivors in *. nia. }
    assert (Ls : length (gs ++ dl ++ ws) = survivors p). { rewrite !app_length. unfold survivors. lia. }
    rewrite Ls in *. split; [nia|]. destruct C4 as (C4 & B4); [nia|]. intros z Hz. rewrite Eof in Hz. apply in_app_iff in Hz. destruct Hz as [Hz|Hz].
    - destruct (Hc2 z Hz) as (c & Hc3 & Hc4). exists c. auto.
    - apply in_map_iff in Hz. destruct Hz as ([z' q] & <- & Hz). cbn [fst].
      assert (Pick : exists rq rb, In rq (gp ++ dp ++ wp) /\ val rq = (z', q) /\ In rb (gs ++ dl ++ ws) /\ (snd rq <= snd rb)%Q).
      { unfold npop in Hz. rewrite !in_app_iff in Hz. destruct Hz as [Hz|[Hz|Hz]]; apply in_map_iff in Hz; destruct Hz as (rq & Ev & Hrq);
          [destruct (select_best _ _ _ M1 Hrq) as (rb & Hrb & Hle)|destruct (select_best _ _ _ M2 Hrq) as (rb & Hrb & Hle)|destruct (select_best _ _ _ M3 Hrq) as (rb & Hrb & Hle)];
          exists rq, rb; (split; [rewrite !in_app_iff; auto|split; [auto|split; [|auto]]]); rewrite !in_app_iff; auto. }
      destruct Pick as (rq & rb & Hrq & Ev & Hrb & Hle). unfold val in Ev. inversion Ev; subst z' q.
      destruct (All _ Hrq) as (_ & B & _). destruct (B4 _ Hrb) as (c & Hc3 & Hc4). exists c. split; auto. rewrite Hc4, <- B. exact Hle. }
  constructor; cbn [ps_heap ps_gwo ps_de ps_woa ps_mem ps_seen ps_pops ps_hist ps_best]; unfold off; cbn [ps_pops]; fold of'; fold seen'.
  - exact F3h.
  - split; auto. apply Forall_forall. intros r Hr. apply Refs. rewrite !in_app_iff; auto.
  - split; auto. apply Forall_forall. intros r Hr. apply Refs. rewrite !in_app_iff; auto.
  - split; auto. apply Forall_forall. intros r Hr. apply Refs. rewrite !in_app_iff; auto.
  - rewrite Em. split; [apply ring_sort; auto|]. split; [change (msize (sort_store mem2)) with (msize mem2); congruence|]. apply sort_nonempty; auto.
  - intros c Hc1. apply Mem1, Mem3; auto.
  - unfold seen'. rewrite !Forall_app. auto.
  - rewrite !app_length. simpl. lia.
  - intros pop Hpop. apply in_app_iff in Hpop. destruct Hpop as [Hpop|[<-|[]]].
    + destruct (Hp _ Hpop) as (A & B). split; auto. intros x q Hxq. destruct (B x q Hxq) as (B1 & B2 & B3). split; auto. split; auto.
      eapply point_in_mono; [|exact B3]. intros z Hz. unfold seen'. apply in_app_iff; auto.
    + split; [unfold npop; rewrite !app_length, !map_length; lia|]. intros x q Hxq.
      unfold npop in Hxq. rewrite <- !map_app in Hxq. apply in_map_iff in Hxq. destruct Hxq as (rq & Ev & Hrq). unfold val in Ev. inversion Ev; subst x q.
      destruct (All _ Hrq) as (A & B & C). split; [apply get_feasible; auto|]. auto.
  - split; [auto|]. replace (S k - 1) with (length (ps_hist st)) by lia. rewrite nth_error_app2, Nat.sub_diag by lia. reflexivity.
  - intros i v Hv. destruct (Nat.lt_ge_cases i (length (ps_hist st))) as [Hi|Hi].
    + rewrite nth_error_app1 in Hv by auto. rewrite offered_old by lia. apply Hx; auto.
    + rewrite nth_error_app2 in Hv by auto. destruct (i - length (ps_hist st)) as [|j] eqn:Ej; [|destruct j; discriminate Hv].
      simpl in Hv. inversion Hv; subst v; clear Hv. assert (i = k) by lia. subst i.
      assert (Eo : offered xs (ps_pops st ++ [npop]) (S k) = of'). { unfold of'. f_equal. rewrite app_length. simpl. lia. }
      rewrite Eo. destruct Eb' as (_ & B2 & _ & (z & Hz & Ez)). split.
      * exists z. split; auto. rewrite B2. symmetry. apply F1_veq; auto.
      * intros En z' Hz'. destruct (Cap En) as (_ & Cap2). destruct (Cap2 z' Hz') as (c & Hc1 & Hc2). eapply Qle_trans; [exact Hc2|]. apply Mb. apply I5; auto.
  - intros r Hr. destruct (In5 r) as [Hr'|(c & Hc1 & <-)]; [rewrite !in_app_iff; auto| |].
    + apply in_map_iff in Hr'. destruct Hr' as (rq & <- & Hr'). apply (Ent rq (Sel _ Hr')).
    + apply (Mem1 c Hc1).
  - intros Eg i pop Hpop x q Hxq. destruct (Nat.lt_ge_cases i (length (ps_pops st))) as [Hl|Hl].
    + rewrite nth_error_app1 in Hpop by auto. rewrite offered_old by lia. eapply Hidle; eauto.
    + rewrite nth_error_app2 in Hpop by auto. destruct (i - length (ps_pops st)) as [|j] eqn:Ej; [|destruct j; discriminate Hpop].
      simpl in Hpop. inversion Hpop; subst pop; clear Hpop. assert (i = length (ps_pops st)) by lia. subst i. rewrite offered_old by lia. fold (off st).
      unfold npop in Hxq. rewrite firstn_app in Hxq. rewrite map_length, Lg, Nat.sub_diag, firstn_O, app_nil_r in Hxq.
      rewrite firstn_all2 in Hxq by (rewrite map_length; lia). apply in_map_iff in Hxq. destruct Hxq as (rq & Erq & Hrq). unfold val in Erq. inversion Erq; subst x q.
      rewrite Eg in E1. destruct (gwo_mod_one _ _ _ _ _ _ (proj2 Hg) Hh E1) as (Ep & _).
      assert (Hin : In (h_get h1 (fst rq)) (map (h_get (ps_heap st)) (ps_gwo st))). { rewrite <- Ep. apply in_map_iff. exists rq. auto. }
      apply in_map_iff in Hin. destruct Hin as (r & Er & Hr). eapply point_in_veq; [apply K23|].
      * rewrite Forall_forall in Fg. apply Fg; auto.
      * rewrite <- Er. apply Hf; auto.
  - intros En. destruct (Cap En) as (Cap1 & Cap2). split.
    + rewrite Em, sort_store_len, L5. exact Cap1.
    + intros z Hz. destruct (Cap2 z Hz) as (c & Hc1 & Hc2). exists c. split; auto. apply Mem3; auto.
Qed.

Lemma best_len {A} (f : A -> list Q) (pop : list A) (g : A -> Q) n : length (map f (firstn n (Opt_Model.sort_desc g pop))) = Nat.min n (length pop).
Proof. rewrite map_length, firstn_length, Opt_Facts.sort_desc_length. reflexivity. Qed.
End P.

(** The start. *)
Section Start.
Context (m : mode) (fit : list Q -> Q) (p : p2_par) (ngen re : nat) (xs : list (list Q)) (attr : option nat).
Hypothesis RD : p2_ready p ngen re xs.
Local Notation F1 := (p2_F1 m fit).
Local Notation steps := (ngen / re * p2_npop p).

Lemma size_pos : 1 <= p2_size attr steps.
Proof. unfold p2_size. destruct attr as [[|k]|]; lia. Qed.

Definition pop0 : list (ref * Q) := @combine ref Q (seq 0 (length xs)) (map (p2_score m fit p) xs).
Lemma pop0_in rq : In rq pop0 -> fst rq < length xs /\ snd rq = F1 (h_get xs (fst rq)) /\ In (h_get xs (fst rq)) xs.
Proof.
  pose proof (rd_feasible _ _ _ _ RD) as rF. pose proof (rd_npop _ _ _ _ RD) as rN. pose proof (rd_dims _ _ _ _ RD) as rW. unfold pop0. intros H.
  assert (G : Forall2 (fun x q => q = F1 x /\ In x xs) xs (map (p2_score m fit p) xs)).
  { assert (X : forall l, incl l xs -> Forall2 (fun x q => q = F1 x /\ In x xs) l (map (p2_score m fit p) l)).
    { induction l as [|a l IH]; intros I; simpl; constructor.
      - assert (In a xs) by (apply I; left; auto). split; auto. apply score_feasible; auto. rewrite Forall_forall in rF. auto.
      - apply IH. intros z Hz. apply I. right; auto. }
    apply X, incl_refl. }
  pose proof (combine_Forall2 _ _ _ (new_Forall2 p rN _ [] _ _ G)) as C. rewrite Forall_forall in C. cbn [app length] in C.
  apply C in H. tauto.
Qed.
Lemma pop0_has x : In x xs -> exists rq, In rq pop0 /\ h_get xs (fst rq) = x /\ snd rq = F1 x.
Proof.
  intros H. destruct (In_nth xs x [] H) as (i & Hi & E). exists (i, F1 x). cbn [fst snd]. split; auto.
  unfold pop0. pose proof (rd_feasible _ _ _ _ RD) as rF. pose proof (rd_dims _ _ _ _ RD) as rW.
  assert (Fx : feasible (p2_dims p) x) by (rewrite Forall_forall in rF; auto).
  assert (Es : nth i (map (p2_score m fit p) xs) (p2_score m fit p []) = F1 x) by (rewrite map_nth, E; apply score_feasible; auto).
  assert (Ei : nth i (combine (seq 0 (length xs)) (map (p2_score m fit p) xs)) (0, p2_score m fit p []) = (i, F1 x)).
  { rewrite combine_nth by (rewrite seq_length, map_length; auto). rewrite seq_nth by auto. rewrite Es. reflexivity. }
  rewrite <- Ei. apply nth_In. rewrite combine_length, seq_length, map_length. lia.
Qed.
Lemma pop0_len : length pop0 = length xs.
Proof. unfold pop0. rewrite combine_length, seq_length, map_length. lia. Qed.

Lemma start_ok : exists st, p2_start m fit p attr ngen re xs = Some st /\ st_ok m fit p xs (p2_size attr steps) re 0 st /\
  ps_step st = 1 /\ ps_alpha st = p2_alpha0 p /\ ps_alphas st = [].
Proof.
  pose proof RD as [W D N N1 N2 (R0 & R1) (G1 & G2 & G3) (X1 & X2 & X3) F]. unfold p2_start.
  rewrite (proj2 (Nat.leb_le _ _) G1), (proj2 (Nat.leb_le _ _) G2), (proj2 (Nat.leb_le _ _) X1), (proj2 (Qle_bool_iff _ _) R0),
    (proj2 (Qle_bool_iff _ _) R1), (proj2 (Nat.leb_le _ _) N1), (proj2 (Nat.leb_le _ _) N2), (proj2 (Nat.ltb_lt _ _) N). cbn [andb].
  unfold h_new at 1. cbn [length app]. fold pop0.
  destruct (p2_add_ok xs (new_memory (p2_size attr steps)) Lna pop0 (ring_new _ size_pos)) as (mem & E & Rg & Sz & I & Ne & L & K).
  rewrite E. cbn [bind]. unfold h_new. eexists. split; [reflexivity|]. split; [|auto].
  set (best n := map (fun rq => h_get xs (fst rq)) (p2_select pop0 n)).
  fold (best (p2_nwolves p)). fold (best (p2_npop p)). fold (best (p2_nwhales p)).
  assert (Lb : forall n, n <= length xs -> length (best n) = n).
  { intros n Hn. unfold best, p2_select. rewrite best_len, pop0_len. lia. }
  assert (Fb : forall n, Forall (feasible (p2_dims p)) (best n)).
  { intros n. apply Forall_forall. intros x Hx. apply in_map_iff in Hx. destruct Hx as (rq & <- & Hrq). apply select_in, pop0_in in Hrq.
    rewrite Forall_forall in F. apply F. tauto. }
  assert (Fs : forall n k t, n + k <= t -> Forall (fun r => r < t) (seq n k)).
  { intros n k t H. apply Forall_forall. intros r Hr. apply in_seq in Hr. lia. }
  assert (Ev : map (p2_arg p) xs = xs). { rewrite <- (map_id xs) at 2. apply map_ext_in. intros a Ha. rewrite Forall_forall in F. apply (score_feasible m fit p W a); auto. }
  assert (Sn : store mem <> []). { apply Ne. right. intros E0. pose proof pop0_len as Z. rewrite E0 in Z. simpl in Z. lia. }
  constructor; cbn [ps_heap ps_gwo ps_de ps_woa ps_mem ps_seen ps_pops ps_hist ps_best]; rewrite ?Ev.
  - rewrite !Forall_app. auto.
  - split; [rewrite seq_length; apply Lb; auto|]. apply Fs. rewrite !app_length, !Lb by auto. lia.
  - split; [rewrite seq_length; apply Lb; auto|]. apply Fs. rewrite !app_length, !Lb by auto. lia.
  - split; [rewrite seq_length; apply Lb; auto|]. apply Fs. rewrite !app_length, !Lb by auto. lia.
  - auto.
  - intros b Hb. destruct (I b Hb) as [Hb'|[]]. destruct (pop0_in _ Hb') as (A & B & C). cbn [fst snd] in *.
    assert (Eg : h_get (((xs ++ best (p2_nwolves p)) ++ best (p2_npop p)) ++ best (p2_nwhales p)) (sx b) = h_get xs (sx b)).
    { unfold h_get. rewrite !app_nth1; auto; rewrite ?app_length; lia. }
    unfold entry_ok, off. rewrite !Eg. cbn [ps_pops]. split; [rewrite !app_length; lia|]. split; [rewrite B; reflexivity|].
    split; apply point_in_self; auto. unfold offered. apply in_app_iff; auto.
  - auto.
  - auto.
  - intros pop [].
  - reflexivity.
  - intros i v Hv. destruct i; discriminate Hv.
  - intros r Hr. apply in_seq in Hr. destruct Hr as (Hr1 & Hr2). rewrite Lb in Hr2 by auto. unfold h_get.
    assert (Lw' : length (best (p2_nwolves p)) = p2_nwolves p) by (apply Lb; auto).
    rewrite app_nth1 by (rewrite !app_length; lia). rewrite app_nth1 by (rewrite !app_length; lia). rewrite app_nth2 by lia.
    set (z := nth (r - length xs) (best (p2_nwolves p)) []). assert (Hz : In z (best (p2_nwolves p))) by (apply nth_In; lia).
    apply in_map_iff in Hz. destruct Hz as (rq & <- & Hrq). apply select_in, pop0_in in Hrq. apply point_in_self. unfold off, offered. apply in_app_iff. tauto.
  - intros _ i pop Hpop. destruct i; discriminate Hpop.
  - intros (En & _). rewrite pop0_len in *. cbn [length store new_memory] in *. split; [lia|].
    destruct K as (_ & K). { cbn [msize new_memory]. lia. }
    intros z Hz. unfold off, offered in Hz. cbn [ps_pops firstn concat map] in Hz. rewrite app_nil_r in Hz.
    destruct (pop0_has z Hz) as (rq & Hrq & _ & Eq). destruct (K rq Hrq) as (b & Hb & Eb). exists b. split; auto. rewrite Eb, Eq. lra.
Qed.
End Start.

Section Main.
Context (expf cosf : Q -> Q) (pwf : Q -> Q -> Q) (m : mode) (fit : list Q -> Q) (p : p2_par).
Context (ngen re : nat) (xs : list (list Q)) (attr : option nat) (drs : nat -> p2_draw).
Hypothesis RD : p2_ready p ngen re xs.
Local Notation steps := (ngen / re * p2_npop p).

Lemma gens_at_least_one : 1 <= ngen / re.
Proof. destruct (rd_gens _ _ _ _ RD) as (? & ? & ?). apply Nat.div_le_lower_bound; lia. Qed.

(** The annealed exponents. *)
Definition alpha_at (i : nat) : Q := match i with O => p2_alpha0 p | S _ => linear_anneal (1 + i * p2_npop p) steps (p2_alpha0 p) (p2_alpha1 p) end.
Definition al_ok (k : nat) (st : p2_state) : Prop :=
  ps_step st = 1 + k * p2_npop p /\ ps_alpha st = alpha_at k /\ ps_alphas st = map alpha_at (seq 0 k).

Lemma run_ok : respects fit -> no_sharing_trouble p -> exists st, p2_start m fit p attr ngen re xs <> None /\
  bind (p2_start m fit p attr ngen re xs) (gens (p2_gen expf cosf pwf m fit p re steps drs) 0 (ngen / re)) = Some st /\
  st_ok m fit p xs (p2_size attr steps) re (ngen / re) st /\ al_ok (ngen / re) st /\ ps_best st <> None.
Proof.
  intros Rf Sh. destruct (start_ok m fit p ngen re xs attr RD) as (st0 & E0 & H0 & A1 & A2 & A3). rewrite E0. cbn [bind].
  pose proof gens_at_least_one as G1. pose proof RD as [W D N N1 N2 (R0 & R1) (_ & G2 & _) _ _].
  destruct (gens_nat_total (p2_gen expf cosf pwf m fit p re steps drs)
    (fun k st => st_ok m fit p xs (p2_size attr steps) re k st /\ al_ok k st /\ (1 <= k -> ps_best st <> None)) (ngen / re) 0 st0) as (st & E & H & A & B).
  - intros k st _ (H & (B1 & B2 & B3) & _).
    destruct (p2_gen_ok expf cosf pwf m fit p W D N N1 N2 R1 xs _ re steps G2 Rf Sh drs k k st H) as (st' & E' & H' & C1 & C2 & C3 & C4).
    exists st'. split; auto. split; auto. split; auto. unfold al_ok. rewrite C1, C2, C3, B1, B2, B3. split; [lia|]. split.
    + cbn [alpha_at]. f_equal. lia.
    + rewrite seq_S, map_app. reflexivity.
  - split; auto. split; [|lia]. split; [lia|]. auto.
  - exists st. split; [discriminate|]. split; auto.
Qed.
End Main.
