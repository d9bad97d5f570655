(** Proofs about PESA: memory, replay and generations. *)
From Coq Require Import List Arith ZArith QArith Bool Lia Lqa Permutation Sorted.
From Verif Require Import Base BaseFacts Space_Model Space_Spec Space_Facts ER_Model ER_Proofs P2_Mem Opt_Model Opt_Spec Opt_Facts Opt_Facts2
  ES_Model PSO_Model SA_Model SA_Spec SA_Proofs P2_Model P1_Model P1_Spec P1_ES P1_SA P1_PSO.
Import ListNotations.
Open Scope nat_scope.

Lemma ring_reordered (a b : p1_mem) : reordered a b -> ring a -> ring b.
Proof. intros (A & B & C) (R1 & R2 & R3 & R4). unfold ring. rewrite <- B, <- C, <- (Permutation_length A). auto. Qed.

Lemma p1_add_ok (mem : p1_mem) l pop : ring mem -> exists mem', p1_add mem l pop = Some mem' /\ ring mem' /\ msize mem' = msize mem /\
  (forall b, In b (store mem') -> In (sx b, obj b) pop \/ In b (store mem)) /\ (store mem <> [] \/ pop <> [] -> store mem' <> []) /\
  length (store mem') <= length pop + length (store mem) /\
  (length pop + length (store mem) <= msize mem ->
     incl (store mem) (store mem') /\ forall x v, In (x, v) pop -> exists b, In b (store mem') /\ (obj b == v)%Q).
Proof.
  intros R. unfold p1_add, add_batch. rewrite zip_batch_combine.
  set (L := map (fun rq : list Q * Q => (fst rq, snd rq, Some l)) pop).
  assert (LL : length L = length pop) by (unfold L; apply map_length).
  destruct (add_all_spec vec_eqb p1_label_eqb L mem R) as (m1 & E & R1 & S1 & I1 & N1 & L1 & K1). exists m1.
  split; [exact E|]. split; auto. split; auto. split.
  { intros b Hb. destruct (I1 b Hb) as [H|H]; auto. left. unfold L in H. apply in_map_iff in H. destruct H as ([x v] & <- & H). exact H. }
  split. { intros [H|H]; apply N1; auto. right. unfold L. destruct pop; [congruence|discriminate]. }
  split; [rewrite <- LL; exact L1|]. intros Hc. rewrite <- LL in Hc. destruct (K1 Hc) as (K1' & K2). split; auto. intros x v Hxv.
  destruct (K2 (x, v, Some l)) as (b & Hb & Eb); [unfold L; apply in_map_iff; exists (x, v); auto|]. exists b. auto.
Qed.

Lemma p1_replay_ok pwf alpha (mem : p1_mem) k draw : store mem <> [] -> exists l, p1_replay pwf alpha mem k draw = Some (sort_store mem, l) /\
  length l = k /\ forall x v, In (x, v) l -> exists b, In b (store mem) /\ sx b = x /\ obj b = v.
Proof.
  intros N. unfold p1_replay.
  assert (Lp : 1 <= length (store mem)) by (destruct (store mem); [congruence|simpl; lia]).
  destruct (prior_spec (fun x => pwf x alpha) mem (map (fun i => draw i mod length (store mem)) (seq 0 k)) N) as (l & -> & L & I).
  { intros i Hi. apply in_map_iff in Hi. destruct Hi as (j & <- & _). apply Nat.mod_upper_bound. lia. }
  cbn [bind]. eexists. split; [reflexivity|]. split; [rewrite map_length, L, map_length, seq_length; auto|].
  intros x v H. apply in_map_iff in H. destruct H as (b & E & Hb). injection E as E1 E2. exists b. split; auto.
Qed.

Lemma members_spec p str : forall l i, length (p1_members p str i l) = length l /\
  forall a, In a (p1_members p str i l) -> exists j q, In q l /\ a = p1_member p str j q.
Proof.
  induction l as [|q l IH]; intros i; cbn [p1_members].
  - split; auto. intros a [].
  - destruct (IH (S i)) as (I1 & I2). split; [simpl; auto|]. intros a [<-|Ha]; [exists i, q; split; [left|]; auto|].
    destruct (I2 a Ha) as (j & q' & H1 & H2). exists j, q'. split; [right|]; auto.
Qed.
Lemma member_strat p str i a : 2 <= length (p1_dims p) -> (forall k, 0 <= str i k /\ str i k <= 1)%Q -> feasible (p1_dims p) (fst a) ->
  mem_ok p (p1_member p str i a).
Proof.
  intros D H F. destruct (smin_ok p D) as (S1 & S2). split; [exact F|]. cbn [snd m_strat p1_member].
  split; [rewrite map_length, seq_length; auto|]. apply Forall_forall. intros s Hs. apply in_map_iff in Hs. destruct Hs as (k & <- & _).
  destruct (H k). fold p1_smax. split; nra.
Qed.

Section Gen.
Context (expf : Q -> Q) (tau tau' : nat -> Q) (pwf : Q -> Q -> Q) (m : mode) (fit : list Q -> Q) (p : p1_par) (fuel : nat).
Context (W : wf_dims (p1_dims p)) (D2 : 2 <= length (p1_dims p)) (N2 : 2 <= p1_npop p)
  (MU : 1 <= p1_mu p <= p1_npop p) (steps size warmup : nat) (drs : nat -> p1_draw) (DR : p1_draws_ok drs).
Local Notation g := (p1_score m fit).
Local Notation ok := (feasible (p1_dims p)).

(** A sample of the memory: a point of the space, evaluated before, with its value. *)
Definition samp_ok (seen : list (list Q)) (x : list Q) (v : Q) : Prop := ok x /\ (v == g x)%Q /\ In x seen.
Definition covers (mem : p1_mem) (seen : list (list Q)) : Prop := forall x, In x seen -> exists b, In b (store mem) /\ (g x <= obj b)%Q.

Record p1_inv (k : nat) (st : p1_state) : Prop := {
  iv_ring : ring (t_mem st); iv_size : msize (t_mem st) = size; iv_ne : store (t_mem st) <> [];
  iv_len : length (store (t_mem st)) <= warmup + k * p1_survivors p;
  iv_store : forall b, In b (store (t_mem st)) -> samp_ok (t_seen st) (sx b) (obj b);
  iv_pop : Forall (mem_ok p) (t_pop st); iv_pop2 : 2 <= length (t_pop st);
  iv_sa : length (t_sa st) = p1_chains p; iv_sa2 : forall x v, In (x, v) (t_sa st) -> samp_ok (t_seen st) x v;
  iv_swarm : Forall (par_ok p) (t_swarm st); iv_swarm2 : length (t_swarm st) = p1_npop p;
  iv_pos : samp_ok (t_seen st) (t_pos st) (t_fit st);
  iv_seen : Forall ok (t_seen st); iv_count : length (t_seen st) = p1_evals p warmup k;
  iv_hist : length (t_hist st) = k;
  iv_vals : forall i v, nth_error (t_hist st) i = Some v -> exists z, In z (firstn (p1_evals p warmup (S i)) (t_seen st)) /\ (v == g z)%Q;
  iv_best : 1 <= k -> exists x y, t_best st = Some (x, y) /\ samp_ok (t_seen st) x y /\ nth_error (t_hist st) (k - 1) = Some y;
  iv_room : warmup + k * p1_survivors p <= size -> covers (t_mem st) (t_seen st) /\
    forall i v, nth_error (t_hist st) i = Some v -> forall z, In z (firstn (p1_evals p warmup (S i)) (t_seen st)) -> (g z <= v)%Q }.

Lemma p1_update_ok (mem : p1_mem) cs es sw : ring mem -> store mem <> [] -> exists mem', p1_update mem cs es sw = Some mem' /\
  ring mem' /\ msize mem' = msize mem /\ store mem' <> [] /\
  length (store mem') <= 2 * length cs + length es + length sw + length (store mem) /\
  (forall b, In b (store mem') -> In b (store mem) \/ (exists c, In c cs /\ ((sx b, obj b) = (ch_x c, ch_E c) \/ (sx b, obj b) = (ch_bx c, ch_bE c))) \/
     (exists a, In a es /\ (sx b, obj b) = (m_ind a, m_fit a)) \/ (exists a, In a sw /\ (sx b, obj b) = (q_pos a, q_fit a))) /\
  (2 * length cs + length es + length sw + length (store mem) <= msize mem -> incl (store mem) (store mem') /\
     (forall c, In c cs -> exists b, In b (store mem') /\ (obj b == ch_bE c)%Q) /\
     (forall a, In a es -> exists b, In b (store mem') /\ (obj b == m_fit a)%Q) /\
     (forall a, In a sw -> exists b, In b (store mem') /\ (obj b == q_fit a)%Q)).
Proof.
  intros R NE. unfold p1_update.
  destruct (p1_add_ok mem Wsanext (map (fun c => (ch_x c, ch_E c)) cs) R) as (m1 & -> & R1 & S1 & I1 & E1 & L1 & K1). cbn [bind].
  destruct (p1_add_ok m1 Wsabest (map (fun c => (ch_bx c, ch_bE c)) cs) R1) as (m2 & -> & R2 & S2 & I2 & E2 & L2 & K2). cbn [bind].
  destruct (p1_add_ok m2 Wes (map (fun a => (m_ind a, m_fit a)) es) R2) as (m3 & -> & R3 & S3 & I3 & E3 & L3 & K3). cbn [bind].
  destruct (p1_add_ok m3 Wpso (map (fun a => (q_pos a, q_fit a)) sw) R3) as (m4 & -> & R4 & S4 & I4 & E4 & L4 & K4).
  exists m4. split; auto. split; auto. split; [congruence|]. split; [apply E4; left; apply E3; left; apply E2; left; apply E1; left; exact NE|]. rewrite !map_length in *.
  split; [lia|]. split.
  - intros b Hb. destruct (I4 b Hb) as [H|H].
    { apply in_map_iff in H. destruct H as (a & E & Ha). right; right; right. exists a. auto. }
    destruct (I3 b H) as [H'|H'].
    { apply in_map_iff in H'. destruct H' as (a & E & Ha). right; right; left. exists a. auto. }
    destruct (I2 b H') as [H0|H0].
    { apply in_map_iff in H0. destruct H0 as (c & E & Hc). right; left. exists c. auto. }
    destruct (I1 b H0) as [H1|H1]; auto.
    apply in_map_iff in H1. destruct H1 as (c & E & Hc). right; left. exists c. auto.
  - intros Rm. destruct K1 as (K1 & K1'); [lia|]. destruct K2 as (K2 & K2'); [lia|]. destruct K3 as (K3 & K3'); [lia|]. destruct K4 as (K4 & K4'); [lia|].
    split; [intros b Hb; auto|]. split; [|split].
    + intros c Hc. destruct (K2' (ch_bx c) (ch_bE c)) as (b & Hb & Eb); [apply in_map_iff; exists c; auto|]. exists b. auto.
    + intros a Ha. destruct (K3' (m_ind a) (m_fit a)) as (b & Hb & Eb); [apply in_map_iff; exists a; auto|]. exists b. auto.
    + intros a Ha. destruct (K4' (q_pos a) (q_fit a)) as (b & Hb & Eb); [apply in_map_iff; exists a; auto|]. exists b. auto.
Qed.

Lemma p1_resample_ok alpha dr (mem : p1_mem) es sw : store mem <> [] -> exists mem' re rp rs,
  p1_resample pwf p alpha dr mem es sw = Some (mem', es ++ p1_members p (e_str dr) 0 re, sw ++ map p1_particle rp, rs) /\
  reordered mem mem' /\ length re = p1_mu p /\ length rp = p1_npop p - p1_mu p /\ length rs = p1_chains p /\
  forall x v, In (x, v) (re ++ rp ++ rs) -> exists b, In b (store mem) /\ sx b = x /\ obj b = v.
Proof.
  intros NE. unfold p1_resample.
  assert (NS : forall q : p1_mem, store q <> [] -> store (sort_store q) <> []).
  { intros q H E. apply (f_equal (@length _)) in E. rewrite sort_store_len in E. destruct (store q); [congruence|discriminate]. }
  destruct (p1_replay_ok pwf alpha mem (p1_mu p) (e_res dr) NE) as (re & -> & L1 & I1). cbn [bind].
  destruct (p1_replay_ok pwf alpha (sort_store mem) (p1_npop p - p1_mu p) (e_rpso dr) (NS _ NE)) as (rp & -> & L2 & I2). cbn [bind].
  destruct (p1_replay_ok pwf alpha (sort_store (sort_store mem)) (p1_chains p) (e_rsa dr) (NS _ (NS _ NE))) as (rs & -> & L3 & I3). cbn [bind].
  do 4 eexists. split; [reflexivity|]. split.
  { eapply reordered_trans; [apply reordered_sort|]. eapply reordered_trans; apply reordered_sort. }
  split; auto. split; auto. split; auto. intros x v H. rewrite !in_app_iff in H. destruct H as [H|[H|H]]; auto.
  - destruct (I2 x v H) as (b & Hb & E). apply (proj1 (sort_store_in mem b)) in Hb. exists b. auto.
  - destruct (I3 x v H) as (b & Hb & E). apply (proj1 (sort_store_in (sort_store mem) b)) in Hb. apply (proj1 (sort_store_in mem b)) in Hb. exists b. auto.
Qed.

Lemma samp_mono s s' x v : incl s s' -> samp_ok s x v -> samp_ok s' x v.
Proof. intros I (A & B & C). split; auto. Qed.

Lemma firstn_old {A} n (l l' : list A) : n <= length l -> firstn n (l ++ l') = firstn n l.
Proof. intros H. rewrite firstn_app. replace (n - length l) with 0 by lia. simpl. rewrite app_nil_r. auto. Qed.

(** The generation, once the three methods have returned. *)
Lemma p1_gen_ok k st st' : p1_inv k st -> p1_gen expf tau tau' pwf m fit p fuel steps drs k st = Some st' ->
  p1_inv (S k) st' /\ t_step st' = t_step st + p1_npop p /\
  t_alpha st' = linear_anneal (t_step st + p1_npop p) steps (p1_alpha0 p) (p1_alpha1 p) /\
  t_alphas st' = t_alphas st ++ [t_alpha st] /\ t_ws st' = t_ws st ++ [t_w st] /\
  t_w st' = match p1_mech p with
            | Timew => if p1_proc p then t_w st else ((9#10) - ((9#10) - (4#10)) * inject_Z (Z.of_nat (t_step st)) / inject_Z (Z.of_nat steps))%Q
            | _ => t_w st
            end.
Proof.
  intros I H. unfold p1_gen in H. cbv zeta in H.
  apply bind_Some in H. destruct H as ([es s1] & Ees & H). apply bind_Some in H. destruct H as ([mem1 cs] & Esa & H).
  apply bind_Some in H. destruct H as ([[[sw pb] w] s3] & Epso & H).
  apply bind_Some in H. destruct H as (mem2 & Eup & H). apply bind_Some in H. destruct H as ([[[mem3 pop] swarm] sa] & Ere & H).
  destruct (sample_greedy mem3 1) as [mem4 top] eqn:Eg.
  apply bind_Some in H. destruct H as (b & Hb & H).
  assert (EW : w = match p1_mech p with
            | Timew => if p1_proc p then t_w st else ((9#10) - ((9#10) - (4#10)) * inject_Z (Z.of_nat (t_step st)) / inject_Z (Z.of_nat steps))%Q
            | _ => t_w st
            end).
  { clear - Epso. unfold pso_mod in Epso. destruct (negb _); [discriminate|]. apply bind_Some in Epso. destruct Epso as (mv & _ & Epso).
    destruct (q_eval m fit (t_pos st) (t_fit st) mv) as [sw0 pb0]. injection Epso as _ _ <- _. reflexivity. }
  destruct DR as (DR1 & DR2).
  destruct (es_mod_ok expf tau tau' m fit p W D2 _ _ _ _ (iv_pop _ _ I) (proj2 MU) Ees) as (A1 & A2 & A3 & A4 & A5 & A6).
  assert (FS : Forall (fun a : ER_Model.sample (list Q) p1_label => ok (sx a)) (store (t_mem st))).
  { apply Forall_forall. intros a Ha. apply (iv_store _ _ I a Ha). }
  assert (FX : Forall ok (map fst (t_sa st))).
  { apply Forall_forall. intros x Hx. apply in_map_iff in Hx. destruct Hx as ([y v] & <- & Hy). apply (iv_sa2 _ _ I y v Hy). }
  assert (F2 : Forall2 (fun x e => e == g x)%Q (map fst (t_sa st)) (map snd (t_sa st))).
  { pose proof (iv_sa2 _ _ I) as Q2. clear - Q2. induction (t_sa st) as [|[x v] l IH]; constructor; [apply (Q2 x v); left; auto|].
    apply IH. intros y u Hy. apply Q2. right; auto. }
  destruct (sa_mod_ok expf m fit p fuel W (e_sa (drs k)) _ _ _ _ _ _ (fun j i => DR1 k j i) FS FX F2 Esa) as (B1 & B2 & B3 & B4 & B5 & B6).
  destruct (iv_pos _ _ I) as (P1 & P2 & P3).
  destruct (pso_mod_ok expf m fit p W _ _ _ _ _ _ _ _ _ _ _ (iv_swarm _ _ I) P1 P2 (proj1 MU) (proj2 MU) Epso) as (C1 & C2 & C3 & C4 & C5 & C6 & C7 & C8 & C9).
  assert (NE1 : store mem1 <> []).
  { intros E. destruct B1 as (B1 & _). rewrite E in B1. apply Permutation_sym, Permutation_nil in B1. apply (iv_ne _ _ I). auto. }
  pose proof (ring_reordered _ _ B1 (iv_ring _ _ I)) as R1.
  destruct (p1_update_ok mem1 cs es sw R1 NE1) as (mem2' & Eup' & R2 & S2 & NE2 & L2 & I2 & K2). rewrite Eup in Eup'. injection Eup' as <-.
  destruct (p1_resample_ok (t_alpha st) (drs k) mem2 es sw NE2) as (mem3' & re & rp & rs & Ere' & O3 & G1 & G2 & G3 & G4).
  rewrite Ere in Ere'. injection Ere' as <- -> -> ->.
  assert (NE3 : store mem3 <> []).
  { intros E. destruct O3 as (O3 & _). rewrite E in O3. apply Permutation_sym, Permutation_nil in O3. auto. }
  destruct (greedy_spec mem3 NE3) as (b' & T1 & T2 & T3 & T4). rewrite Eg in T1, T2. cbn [fst snd] in T1, T2.
  rewrite Hb in T1. injection T1 as <-. subst mem4.
  set (new := s1 ++ concat (map ch_log cs) ++ s3) in *.
  injection H as <-. cbn [t_step t_alpha t_alphas t_ws t_w]. split; [|auto 10].
  set (seen' := t_seen st ++ new) in *.
  assert (IO : incl (t_seen st) seen') by (intros z Hz; apply in_app_iff; auto).
  assert (I1s : incl s1 seen') by (intros z Hz; unfold seen', new; rewrite !in_app_iff; auto).
  assert (IL : incl (concat (map ch_log cs)) seen') by (intros z Hz; unfold seen', new; rewrite !in_app_iff; auto).
  assert (I3s : incl s3 seen') by (intros z Hz; unfold seen', new; rewrite !in_app_iff; auto).
  assert (Fn : Forall ok new) by (unfold new; rewrite !Forall_app; auto).
  assert (Ln : length new = 3 * p1_npop p) by (unfold new; rewrite !app_length; lia).
  assert (Xs : incl (map fst (t_sa st)) (t_seen st)).
  { intros z Hz. apply in_map_iff in Hz. destruct Hz as ([y v] & <- & Hy). apply (iv_sa2 _ _ I y v Hy). }
  assert (OK2 : forall b, In b (store mem2) -> samp_ok seen' (sx b) (obj b)).
  { intros q Hq. destruct (I2 q Hq) as [H|[(c & Hc & H)|[(a & Ha & H)|(a & Ha & H)]]].
    - eapply samp_mono; [exact IO|]. apply (iv_store _ _ I). destruct B1 as (B1 & _). eapply Permutation_in; [symmetry; exact B1|auto].
    - destruct (B5 c Hc) as (Q1 & Q2 & Q3 & Q4 & Q5 & Q6).
      assert (Inn : forall z, In z (map fst (t_sa st) ++ concat (map ch_log cs)) -> In z seen').
      { intros z Hz. apply in_app_iff in Hz. destruct Hz; auto. }
      destruct H as [H|H]; injection H as -> ->; split; auto.
    - injection H as -> ->. rewrite Forall_forall in A5, A2. destruct (A5 a Ha) as (Q1 & Q2). split; [auto|]. split; [rewrite Q2; reflexivity|auto].
    - injection H as -> ->. rewrite Forall_forall in C5, C2. destruct (C5 a Ha) as (Q1 & Q2). split; [auto|]. split; [rewrite Q2; reflexivity|auto]. }
  assert (O4 : Permutation (store mem2) (store (sort_store mem3))).
  { eapply Permutation_trans; [apply (proj1 O3)|]. apply (proj1 (reordered_sort mem3)). }
  assert (L1 : length (store mem1) = length (store (t_mem st))) by (apply Permutation_length, Permutation_sym, (proj1 B1)).
  assert (SV : p1_survivors p = 2 * length cs + length es + length sw) by (unfold p1_survivors; change (p1_chain_count p) with (p1_chains p); lia).
  pose proof (iv_len _ _ I) as IL0.
  assert (EC : p1_evals p warmup (S k) = length seen').
  { unfold seen'. rewrite app_length, (iv_count _ _ I), Ln. unfold p1_evals. lia. }
  assert (BI : In b (store mem2)) by (eapply Permutation_in; [symmetry; apply (proj1 O3)|auto]).
  assert (HK : forall i v, nth_error (t_hist st ++ [obj b]) i = Some v -> (i < k /\ nth_error (t_hist st) i = Some v) \/ (i = k /\ v = obj b)).
  { intros i v Hi. pose proof (iv_hist _ _ I) as HL. destruct (Nat.lt_ge_cases i k) as [C|C].
    - left. split; auto. rewrite nth_error_app1 in Hi by lia. auto.
    - right. rewrite nth_error_app2 in Hi by lia. rewrite HL in Hi.
      destruct (i - k) as [|j] eqn:Ej; [|destruct j; discriminate]. injection Hi as <-. split; [lia|auto]. }
  assert (OLD : forall i, i < k -> firstn (p1_evals p warmup (S i)) seen' = firstn (p1_evals p warmup (S i)) (t_seen st)).
  { intros i Hi. unfold seen'. apply firstn_old. rewrite (iv_count _ _ I). unfold p1_evals. nia. }
  constructor; cbn [t_mem t_pop t_sa t_swarm t_pos t_fit t_best t_hist t_seen].
  - eapply ring_reordered; [|exact R2]. eapply reordered_trans; [exact O3|apply reordered_sort].
  - change (msize (sort_store mem3)) with (msize mem3). rewrite <- (proj1 (proj2 O3)), S2, <- (proj1 (proj2 B1)). apply (iv_size _ _ I).
  - intros E. rewrite E in O4. apply Permutation_sym, Permutation_nil in O4. auto.
  - rewrite <- (Permutation_length O4). lia.
  - intros q Hq. apply OK2. eapply Permutation_in; [symmetry; exact O4|auto].
  - apply Forall_app. split; auto. apply Forall_forall. intros a Ha. destruct (members_spec p (e_str (drs k)) re 0) as (_ & Ms).
    destruct (Ms a Ha) as (j & [x v] & Hq & ->). apply member_strat; auto. cbn [fst].
    destruct (G4 x v) as (q & Hq' & E1 & E2); [apply in_app_iff; auto|]. rewrite <- E1. apply (OK2 q Hq').
  - rewrite app_length. destruct (members_spec p (e_str (drs k)) re 0) as (Lm & _). rewrite Lm. lia.
  - exact G3.
  - intros x v Hx. destruct (G4 x v) as (q & Hq' & E1 & E2); [rewrite !in_app_iff; auto|]. rewrite <- E1, <- E2. apply (OK2 q Hq').
  - apply Forall_app. split; auto. apply Forall_forall. intros a Ha. apply in_map_iff in Ha. destruct Ha as ([x v] & <- & Hx).
    destruct (G4 x v) as (q & Hq' & E1 & E2); [rewrite !in_app_iff; auto|].
    assert (Ox : ok x) by (rewrite <- E1; apply (OK2 q Hq')). split; [exact Ox|]. split; [|exact Ox].
    cbn [p1_particle q_vel fst]. rewrite map_length. apply feasible_length; auto.
  - rewrite app_length, map_length. lia.
  - split; auto. split; auto. destruct C8 as [C8|C8]; [rewrite <- C8; auto|auto].
  - apply Forall_app. split; auto. apply (iv_seen _ _ I).
  - symmetry. exact EC.
  - rewrite app_length, (iv_hist _ _ I). simpl. lia.
  - intros i v Hi. destruct (HK i v Hi) as [(C & Hi')|(-> & ->)].
    + rewrite (OLD i C). apply (iv_vals _ _ I); auto.
    + exists (sx b). destruct (OK2 b BI) as (_ & Q2 & Q3). rewrite EC, firstn_all. auto.
  - intros _. exists (sx b), (obj b). split; auto. split; [auto|]. replace (S k - 1) with (length (t_hist st)) by (rewrite (iv_hist _ _ I); lia).
    rewrite nth_error_app2, Nat.sub_diag by lia. reflexivity.
  - intros Rm. destruct (iv_room _ _ I) as (V1 & V2); [lia|].
    destruct K2 as (K2a & K2b & K2c & K2d). { rewrite <- (proj1 (proj2 B1)), (iv_size _ _ I). lia. }
    assert (CV : covers mem2 seen').
    { intros z Hz. unfold seen', new in Hz. rewrite !in_app_iff in Hz. destruct Hz as [Hz|[Hz|[Hz|Hz]]].
      - destruct (V1 z Hz) as (q & Hq & Lq). exists q. split; auto. apply K2a. destruct B1 as (B1 & _). eapply Permutation_in; [exact B1|auto].
      - destruct (A6 (proj1 MU) z Hz) as (a & Ha & La). destruct (K2c a Ha) as (q & Hq & Eq). exists q. split; auto. rewrite Eq. auto.
      - destruct (B6 z Hz) as (c & Hc & Lc). destruct (K2b c Hc) as (q & Hq & Eq). exists q. split; auto. rewrite Eq. auto.
      - destruct (C9 z Hz) as (a & Ha & La). destruct (K2d a Ha) as (q & Hq & Eq). exists q. split; auto. rewrite Eq. auto. }
    split.
    + intros z Hz. destruct (CV z Hz) as (q & Hq & Lq). exists q. split; auto. eapply Permutation_in; [exact O4|auto].
    + intros i v Hi. destruct (HK i v Hi) as [(C & Hi')|(-> & ->)].
      * rewrite (OLD i C). apply V2; auto.
      * intros z Hz. apply in_firstn in Hz. destruct (CV z Hz) as (q & Hq & Lq). eapply Qle_trans; [exact Lq|]. apply T4.
        eapply Permutation_in; [apply (proj1 O3)|auto].
Qed.

Lemma p1_gen_total k st : (forall q, 0 < expf q)%Q -> p1_varied p fuel drs -> p1_npop p mod p1_chains p = 0 ->
  (p1_mech p = Globw -> ~ (t_fit st == 0)%Q) ->
  p1_inv k st -> exists st', p1_gen expf tau tau' pwf m fit p fuel steps drs k st = Some st'.
Proof.
  intros He (HF & HV) Hc HG I. destruct DR as (DR1 & DR2). unfold p1_gen. cbv zeta.
  destruct (es_mod_total expf tau tau' m fit p W D2 (e_es (drs k)) (t_pop st) He (iv_pop2 _ _ I) (iv_pop _ _ I)) as (es & s1 & ->). cbn [bind].
  assert (FS : Forall (fun a : ER_Model.sample (list Q) p1_label => ok (sx a)) (store (t_mem st))).
  { apply Forall_forall. intros a Ha. apply (iv_store _ _ I a Ha). }
  assert (FX : Forall ok (map fst (t_sa st))).
  { apply Forall_forall. intros x Hx. apply in_map_iff in Hx. destruct Hx as ([y v] & <- & Hy). apply (iv_sa2 _ _ I y v Hy). }
  assert (F2 : Forall2 (fun x e => e == g x)%Q (map fst (t_sa st)) (map snd (t_sa st))).
  { pose proof (iv_sa2 _ _ I) as Q2. clear - Q2. induction (t_sa st) as [|[x v] l IH]; constructor; [apply (Q2 x v); left; auto|].
    apply IH. intros y u Hy. apply Q2. right; auto. }
  assert (exists mem1 cs, sa_mod expf m fit p fuel (e_sa (drs k)) (t_mem st) (t_step st) (map fst (t_sa st)) (map snd (t_sa st)) = Some (mem1, cs)) as (mem1 & cs & Esa).
  { unfold sa_mod. cbv zeta. rewrite !map_length, (iv_sa _ _ I), Hc, !Nat.eqb_refl. cbn [andb negb].
    eapply s_chains_total; eauto. apply (iv_ne _ _ I). }
  rewrite Esa. cbn [bind]. apply sa_mod_ok in Esa; auto. destruct Esa as (B1 & _).
  destruct (iv_pos _ _ I) as (P1 & P2 & P3).
  destruct (pso_mod_total expf m fit p (t_step st) steps (e_pso (drs k)) (t_w st) (t_pos st) (t_fit st) (t_swarm st) (iv_swarm _ _ I) P1 (iv_swarm2 _ _ I) HG)
    as (sw & pb & w & s3 & ->). cbn [bind].
  assert (NE1 : store mem1 <> []).
  { intros E. destruct B1 as (B1 & _). rewrite E in B1. apply Permutation_sym, Permutation_nil in B1. apply (iv_ne _ _ I). auto. }
  destruct (p1_update_ok mem1 cs es sw (ring_reordered _ _ B1 (iv_ring _ _ I)) NE1) as (mem2 & -> & R2 & S2 & NE2 & L2 & I2 & K2). cbn [bind].
  destruct (p1_resample_ok (t_alpha st) (drs k) mem2 es sw NE2) as (mem3 & re & rp & rs & -> & O3 & _). cbn [bind].
  assert (NE3 : store mem3 <> []).
  { intros E. destruct O3 as (O3 & _). rewrite E in O3. apply Permutation_sym, Permutation_nil in O3. auto. }
  destruct (greedy_spec mem3 NE3) as (b & T1 & T2 & _). destruct (sample_greedy mem3 1) as [mem4 top]. cbn [fst snd] in *. rewrite T1. cbn [bind]. eauto.
Qed.
End Gen.
