From Coq Require Import List Arith ZArith QArith Lia Lqa Bool Permutation.
From Verif Require Import Base BaseFacts Space_Model Space_Spec Space_Proofs Opt_Model Opt_Spec Opt_Facts Opt_Facts2 Pop_Model Pop_Spec Pop_Proofs Swarm_Model EDEV_Model EDEV_Spec EDEV_Proofs EDEV_Run EDEV_Top EDEV_Donors.
Import ListNotations.
Open Scope nat_scope.

Local Opaque gnR1R2 reject.

Lemma round20_le n : 2 <= n -> Nat.max (round20 n) 2 <= n.
Proof.
  intros H. unfold round20. pose proof (Nat.div_mod n 20 ltac:(lia)) as E. pose proof (Nat.mod_upper_bound n 20 ltac:(lia)) as B.
  cbv zeta. destruct (n mod 20 <? 10) eqn:E1; [lia|]. apply Nat.ltb_ge in E1.
  destruct (10 <? n mod 20); [lia|]. destruct (Nat.even _); lia.
Qed.

Section Total.
Context (expf : Q -> Q) (m : mode) (fit : list Q -> Q) (ds : list dimn) (mt : imethod).
Context (W : wf_dims ds) (D : discrete_ok mt ds).
Notation row := (fun v : list Q => length v = length ds).
Notation g := (fun x => as_min m (fit x)).

Lemma jade_trials_total d arch pop vals : 2 <= length pop -> length vals = length pop -> donors_found d (length pop) (length arch) ->
  exists raw, jade_trials ds d arch pop vals = Some raw.
Proof.
  intros Hn Lv DF. unfold jade_trials, donors_found in *. rewrite app_length.
  destruct (gnR1R2 (length pop) (length pop - 1) (length pop + length arch - 1) (j_r1 d) (j_r2 d)) as [[r1 r2]|] eqn:E; [|congruence].
  cbn [bind]. destruct (jade_donors _ (length pop + length arch) _ _ _ _ Hn ltac:(lia) E) as (L1 & L2 & DD).
  apply traverse_total_idx. intros i x [_ Hi] _. cbn [Nat.add] in Hi. unfold jade_row.
  set (order := map fst (sort_asc snd (combine (seq 0 (length pop)) vals))).
  assert (Lo : length order = length pop).
  { unfold order. rewrite map_length, sort_asc_length, combine_length, seq_length. lia. }
  destruct (nth_of_lt order (below (Nat.max (round20 (length pop)) 2) (j_pb d i))) as (pb & Epb).
  { rewrite Lo. pose proof (round20_le _ Hn). pose proof (below_lt (Nat.max (round20 (length pop)) 2) (j_pb d i)). lia. }
  rewrite Epb. cbn [bind].
  assert (Hpb : pb < length pop).
  { apply nth_error_In in Epb. unfold order in Epb. apply in_map_iff in Epb. destruct Epb as ([a b] & <- & Hab).
    apply in_sort_asc in Hab. apply in_combine_l in Hab. apply in_seq in Hab. simpl. lia. }
  destruct (nth_of_lt pop pb Hpb) as (b & Eb). rewrite Eb. cbn [bind].
  destruct (nth_of_lt r1 i) as (i1 & E1); [lia|]. destruct (nth_of_lt r2 i) as (i2 & E2); [lia|].
  destruct (DD i i1 i2 E1 E2) as (B1 & B2 & _). rewrite E1. cbn [bind].
  destruct (nth_of_lt pop i1) as (a & Ea); [lia|]. rewrite Ea. cbn [bind]. rewrite E2. cbn [bind].
  destruct (nth_of_lt (pop ++ arch) i2) as (c & Ec); [rewrite app_length; lia|]. rewrite Ec. cbn [bind]. eauto.
Qed.

Lemma firstn_len {A} k (l : list A) : k <= length l -> length (firstn k l) = k.
Proof. intros. rewrite firstn_length. lia. Qed.

Lemma generator_total pop i gd : 7 <= length pop -> i < length pop -> 3 <= length (g_a gd) -> 5 <= length (g_b gd) ->
  exists us, generator pop ds i gd = Some us.
Proof.
  intros Hn Hi Ha Hb. unfold generator.
  assert (LS : length (remove_at (seq 0 (length pop)) i) = S (length pop - 2)). { rewrite remove_at_length; rewrite seq_length; lia. }
  destruct (nth_of_lt pop i Hi) as (x & Ex). rewrite Ex. cbn [bind].
  destruct (donors_total (firstn 3 (g_a gd)) _ _ LS) as (ix & Eix). { rewrite firstn_len; lia. }
  destruct (code_donors _ _ _ _ Hi Eix) as (Lx & _ & Fx). rewrite firstn_len in Lx by auto. rewrite Eix. cbn [bind].
  destruct ix as [|i1 [|i2 [|i3 [|]]]]; try discriminate Lx.
  inversion Fx as [|? ? [I1 _] Fx1]; subst. inversion Fx1 as [|? ? [I2 _] Fx2]; subst. inversion Fx2 as [|? ? [I3 _] _]; subst.
  destruct (nth_of_lt pop i1 I1) as (a1 & E1). destruct (nth_of_lt pop i2 I2) as (a2 & E2). destruct (nth_of_lt pop i3 I3) as (a3 & E3).
  rewrite E1, E2, E3. cbn [bind].
  assert (Hp : 0 < length pop) by lia.
  destruct (nth_of_lt pop _ (below_lt (length pop) (g_c gd 0) Hp)) as (c1 & C1). rewrite C1. cbn [bind].
  destruct (nth_of_lt pop _ (below_lt (length pop) (g_c gd 1) Hp)) as (c2 & C2). rewrite C2. cbn [bind].
  destruct (nth_of_lt pop _ (below_lt (length pop) (g_c gd 2) Hp)) as (c3 & C3). rewrite C3. cbn [bind].
  destruct (donors_total (firstn 5 (g_b gd)) _ _ LS) as (jx & Ejx). { rewrite firstn_len; lia. }
  destruct (code_donors _ _ _ _ Hi Ejx) as (Ly & _ & Fy). rewrite firstn_len in Ly by auto. rewrite Ejx. cbn [bind].
  destruct jx as [|j1 [|j2 [|j3 [|j4 [|j5 [|]]]]]]; try discriminate Ly.
  inversion Fy as [|? ? [J1 _] Fy1]; subst. inversion Fy1 as [|? ? [J2 _] Fy2]; subst. inversion Fy2 as [|? ? [J3 _] Fy3]; subst.
  inversion Fy3 as [|? ? [J4 _] Fy4]; subst. inversion Fy4 as [|? ? [J5 _] _]; subst.
  destruct (nth_of_lt pop j1 J1) as (b1 & B1). destruct (nth_of_lt pop j2 J2) as (b2 & B2). destruct (nth_of_lt pop j3 J3) as (b3 & B3).
  destruct (nth_of_lt pop j4 J4) as (b4 & B4). destruct (nth_of_lt pop j5 J5) as (b5 & B5).
  rewrite B1, B2, B3, B4, B5. cbn [bind]. eauto.
Qed.
Lemma code_trials_total d pop : 7 <= length pop -> (forall i, 3 <= length (g_a (c_g d i)) /\ 5 <= length (g_b (c_g d i))) ->
  exists raw, code_trials ds d pop = Some raw.
Proof.
  intros Hn HL. unfold code_trials.
  destruct (traverse_total_idx (fun i (_ : list Q) => generator pop ds i (c_g d i)) pop 0) as (l & E).
  - intros i x [_ Hi] _. destruct (HL i). apply generator_total; auto.
  - rewrite E. cbn [bind]. eauto.
Qed.
Lemma code_picks_total off (xs : list (list Q * Q)) : forall pre, length off = 3 * (pre + length xs) ->
  exists pv, traverse (code_pick off (map g off)) pre xs = Some pv.
Proof.
  induction xs as [|xv xs IH]; intros pre L; cbn [traverse]; [eauto|]. cbn [length] in L.
  unfold code_pick at 1. destruct (argmin_Some (firstn 3 (skipn (3 * pre) (map g off)))) as (k & v & E).
  { intros Z. apply (f_equal (@length Q)) in Z. rewrite firstn_length, skipn_length, map_length in Z. cbn [length] in Z. lia. }
  rewrite E. cbn [bind]. apply argmin_spec in E. destruct E as (E & _).
  assert (K : k < 3). { assert (k < length (firstn 3 (skipn (3 * pre) (map g off)))) by (apply nth_error_Some; congruence). rewrite firstn_length in H. lia. }
  destruct (nth_of_lt off (3 * pre + k)) as (u & Eu); [lia|]. rewrite Eu. cbn [bind].
  rewrite nth_error_map, Eu. cbn [option_map bind]. destruct (IH (S pre)) as (pv & Epv); [lia|]. rewrite Epv. cbn [bind]. eauto.
Qed.
Lemma take_best_total b pop vals : vals <> [] -> length pop = length vals -> exists b', take_best b pop vals = Some b'.
Proof.
  intros Hv L. unfold take_best. destruct (argmin_Some vals Hv) as (k & v & E). rewrite E. cbn [bind].
  destruct (Qltb v (snd b)); eauto. apply argmin_spec in E. destruct E as (E & _).
  destruct (nth_of_lt pop k) as (x & Ex). { rewrite L. apply nth_error_Some. congruence. }
  rewrite Ex. cbn [bind]. eauto.
Qed.
Lemma ep_para_total d spara gen rate pp k : Permutation spara [0; 1; 2] -> exists q, ep_para d spara gen rate pp k = Some q.
Proof.
  intros SP. unfold ep_para. destruct (negb (gen =? 0) && Qle_bool (p_use d k) rate && negb (length pp =? 0)) eqn:E.
  - apply andb_true_iff in E. destruct E as [_ E]. apply negb_true_iff in E. apply Nat.eqb_neq in E.
    destruct (nth_of_lt pp (below (length pp) (p_old d k))) as (q & Eq). { apply below_lt. lia. } rewrite Eq. cbn [bind]. eauto.
  - pose proof (Permutation_length SP) as L. simpl in L.
    destruct (nth_of_lt spara (below (length spara) (p_str d k))) as (s & Es). { apply below_lt. lia. } rewrite Es. cbn [bind].
    destruct (nth_of_lt ep_CR (below 9 (p_cr d k))) as (c & Ec). { apply (below_lt 9). lia. } rewrite Ec. cbn [bind].
    destruct (nth_of_lt ep_FF (below 6 (p_ff d k))) as (f & Ef). { apply (below_lt 6). lia. } rewrite Ef. cbn [bind]. eauto.
Qed.
Lemma ep_trial_total d bm pop q i x : 4 <= length pop -> Permutation (p_ind d (length pop) i) (seq 0 (length pop)) ->
  exists u, ep_trial ds d bm pop q i x = Some u.
Proof.
  intros Hn HP. unfold ep_trial.
  assert (RW : forall k, k < 4 -> exists p, (let* j := nth_error (p_ind d (length pop) i) k in nth_error pop j) = Some p).
  { intros k Hk. pose proof (Permutation_length HP) as L. rewrite seq_length in L.
    destruct (nth_of_lt (p_ind d (length pop) i) k) as (j & Ej); [lia|]. rewrite Ej. cbn [bind]. apply nth_of_lt.
    apply nth_error_In in Ej. apply (Permutation_in _ HP) in Ej. apply in_seq in Ej. lia. }
  destruct (RW 0) as (p0 & E0); [lia|]. destruct (RW 1) as (p1 & E1); [lia|]. destruct (RW 2) as (p2 & E2); [lia|]. destruct (RW 3) as (p3 & E3); [lia|].
  destruct (q_str q) as [|[|[|]]]; rewrite ?E0; cbn [bind]; rewrite ?E1; cbn [bind]; rewrite ?E2; cbn [bind]; rewrite ?E3; cbn [bind]; eauto.
Qed.

(** The positions to be deleted from PPara are positions of PPara. *)
Lemma ep_select_pp l : forall s0 s' pv, Forall (fun e => snd (snd e) < length (s_pp s0) \/ snd (snd e) = 0) l ->
  Forall (fun i => i < length (s_pp s0)) (s_rrr s0) ->
  ep_select s0 l = (s', pv) -> Forall (fun i => i < length (s_pp s')) (s_rrr s').
Proof.
  induction l as [|[[xv uf] [q rr]] l IH]; intros s0 s' pv F R E; cbn [ep_select] in E.
  - inversion E; subst. auto.
  - inversion F as [|? ? Hr F']; subst. cbn [snd] in Hr. unfold ep_step in E. destruct (Qltb (snd uf) (snd xv)).
    + destruct (ep_select _ l) as [s2 out] eqn:Er. inversion E; subst. refine (IH _ _ _ _ _ Er); cbn [s_pp s_rrr].
      * eapply Forall_impl; [|exact F']. cbv beta. intros e. rewrite app_length. lia.
      * assert (R' : Forall (fun i => i < length (s_pp s0 ++ [q])) (s_rrr s0)).
        { eapply Forall_impl; [|exact R]. cbv beta. intros e. rewrite app_length. lia. }
        destruct (rr =? 0) eqn:E0; auto. apply Forall_app. split; auto. apply Nat.eqb_neq in E0. constructor; auto. rewrite app_length. lia.
    + destruct (ep_select _ l) as [s2 out] eqn:Er. inversion E; subst. refine (IH _ _ _ _ _ Er); cbn [s_pp s_rrr]; auto.
Qed.
Lemma ep_para_rr d spara gen rate pp k q rr : ep_para d spara gen rate pp k = Some (q, rr) -> rr < length pp \/ rr = 0.
Proof.
  unfold ep_para. destruct (negb (gen =? 0) && Qle_bool (p_use d k) rate && negb (length pp =? 0)) eqn:E; intros H.
  - apply andb_true_iff in E. destruct E as [_ E]. apply negb_true_iff in E. apply Nat.eqb_neq in E.
    apply bind_Some in H. destruct H as (q' & _ & H). inversion H; subst. left. apply below_lt. lia.
  - apply bind_Some in H. destruct H as (s & _ & H). apply bind_Some in H. destruct H as (c & _ & H).
    apply bind_Some in H. destruct H as (f & _ & H). inversion H; subst. auto.
Qed.
Lemma np_delete_total {A} (l : list A) idx : Forall (fun i => i < length l) idx -> exists r, np_delete l idx = Some r.
Proof.
  intros F. unfold np_delete. replace (forallb (fun i => i <? length l) idx) with true; eauto.
  symmetry. apply forallb_forall. intros i Hi. apply Nat.ltb_lt. rewrite Forall_forall in F. auto.
Qed.

Lemma group_sizes s win perm npop : length perm = npop -> 7 <= s -> 7 <= npop - 2 * s -> let gr := split_groups s win perm in
  (length (g1 gr) = s \/ length (g1 gr) = npop - 2 * s) /\ 7 <= length (g1 gr) /\ 7 <= length (g2 gr) /\ 7 <= length (g3 gr).
Proof.
  intros L Hs Hb. cbv zeta.
  assert (A : length (firstn s perm) = s) by (rewrite firstn_length; lia).
  assert (B : length (firstn s (skipn s perm)) = s) by (rewrite firstn_length, skipn_length; lia).
  assert (C : length (skipn (2 * s) perm) = npop - 2 * s) by (rewrite skipn_length; lia).
  unfold split_groups. destruct win as [|[|w]]; cbn [g1 g2 g3]; rewrite A, B, C; lia.
Qed.

Definition tot_ok (npop s cap : nat) (st : estate) : Prop :=
  length (x_arch st) <= cap /\ exists w perm, Permutation perm (seq 0 npop) /\ x_grp st = split_groups s w perm.

Lemma ed_gen_total npop s cap ngen ng spara dr k start st : 7 <= s -> 7 <= npop - 2 * s -> cap = npop - 2 * s -> ng <> 0 ->
  Permutation spara [0; 1; 2] -> draws_ok npop (dr k) -> enough_draws npop s (dr k) ->
  run_ok m fit ds npop s k start st -> tot_ok npop s cap st ->
  exists st', ed_gen expf m fit ds mt s cap ngen ng spara dr k st = Some st' /\ tot_ok npop s cap st'.
Proof.
  intros Hs Hb Hc Hng SP (DP & DC & DI) (ED1 & ED2) R (LA & w0 & perm0 & P0 & EG).
  pose proof (ro_pop _ _ _ _ _ _ _ _ R) as R1. pose proof (ro_arch _ _ _ _ _ _ _ _ R) as R2. pose proof (ro_bm _ _ _ _ _ _ _ _ R) as R3.
  unfold ed_gen.
  assert (RW : exists win chg, rewarded ng k st = Some (win, chg)).
  { unfold rewarded. destruct (ng =? 0) eqn:E0; [apply Nat.eqb_eq in E0; lia|]. destruct (k mod ng =? 0); [|eauto].
    rewrite EG. destruct (group_sizes s w0 perm0 npop) as (_ & G1 & G2 & G3); auto.
    { rewrite (Permutation_length P0), seq_length. auto. }
    destruct (length (g1 _) =? 0) eqn:Z1; [apply Nat.eqb_eq in Z1; lia|]. destruct (length (g2 _) =? 0) eqn:Z2; [apply Nat.eqb_eq in Z2; lia|].
    destruct (length (g3 _) =? 0) eqn:Z3; [apply Nat.eqb_eq in Z3; lia|]. cbn [orb].
    match goal with |- context [argmax ?l] => destruct (argmax_Some l) as (i & v & E); [discriminate|rewrite E] end. cbn [bind]. eauto. }
  destruct RW as (win & chg & ERW). rewrite ERW. cbn [bind].
  assert (LP : length (e_perm (dr k)) = npop) by (rewrite (Permutation_length DP), seq_length; auto).
  pose proof (group_sizes s win (e_perm (dr k)) npop LP Hs Hb) as GS. cbv zeta in GS.
  set (gr := split_groups s win (e_perm (dr k))) in *. destruct GS as (GS0 & G1 & G2 & G3).
  assert (PG : Permutation (g1 gr ++ g2 gr ++ g3 gr) (seq 0 npop)) by (etransitivity; [apply split_perm|exact DP]).
  destruct (parts_facts _ _ PG) as ((N1 & N2 & N3) & (F1 & F2 & F3) & X12 & X13 & X23).
  assert (LV : forall P V b L, pop_ok m fit ds npop P V b L -> length V = npop).
  { intros P V b L Z. rewrite <- (po_n _ _ _ _ _ _ _ _ Z). symmetry. eapply Forall2_length. apply (po_val _ _ _ _ _ _ _ _ Z). }
  assert (GT : forall idx P V b L, pop_ok m fit ds npop P V b L -> Forall (fun i => i < npop) idx ->
    exists p v, gather idx P = Some p /\ gather idx V = Some v /\ length p = length idx /\ length v = length idx /\ Forall row p).
  { intros idx P V b L Z F. destruct (gather_total idx P) as (p & Ep); [rewrite (po_n _ _ _ _ _ _ _ _ Z); auto|].
    destruct (gather_total idx V) as (v & Ev); [rewrite (LV _ _ _ _ Z); auto|]. exists p, v. split; auto. split; auto.
    split; [eapply gather_length; eauto|]. split; [eapply gather_length; eauto|].
    apply Forall_forall. intros x Hx. apply feasible_length. pose proof (po_feas _ _ _ _ _ _ _ _ Z) as FF. rewrite Forall_forall in FF.
    apply FF. eapply gather_In; eauto. }
  assert (VN : forall (v : list Q), 7 <= length v -> v <> []) by (intros [|? ?]; simpl; [lia|congruence]).
  (* JADE *)
  destruct (GT _ _ _ _ _ R1 F1) as (pop1 & val1 & GP1 & GV1 & Lp1 & Lv1 & Fr1). rewrite GP1, GV1. cbn [bind].
  destruct (jade_trials_total (e_j (dr k)) (map fst (x_arch st)) pop1 val1) as (raw1 & T1); [lia|lia| |].
  { rewrite map_length, Lp1. apply ED1; auto. lia. }
  rewrite T1. cbn [bind]. destruct (jade_trials_rows ds W _ _ _ _ _ Fr1 R2 T1) as [L1 Fraw1].
  destruct (settle_all_ok expf ds mt W D (anneal1 k ngen) (j_vd (e_j (dr k))) raw1 Fraw1) as (off1 & O1 & L1' & Fo1). rewrite O1. cbn [bind].
  rewrite (scores_ok m fit ds W off1 Fo1).
  pose proof (gather_Forall2 _ _ _ _ _ _ GP1 GV1 (po_val _ _ _ _ _ _ _ _ R1)) as FV1.
  pose proof (jade_select_ok expf m fit ds pop1 val1 off1 ltac:(congruence) FV1 Fo1) as V1.
  destruct (archive_total cap (j_cut (e_j (dr k))) (x_arch st) (replaced (jade_wins val1 (map g off1)) (combine pop1 (jade_vals val1 (map g off1)))) DC) as (arch & AR).
  rewrite AR. cbn [bind].
  set (pop1' := pick_rows (jade_wins val1 (map g off1)) off1 pop1) in *. set (new1 := jade_vals val1 (map g off1)) in *.
  assert (Ln1 : length new1 = length val1). { eapply Forall2_length. apply (va_le _ _ _ _ _ _ _ _ V1). }
  destruct (take_best_total (x_best st) pop1' new1) as (best1 & B1).
  { apply VN. lia. } { rewrite (va_len _ _ _ _ _ _ _ _ V1). lia. }
  rewrite B1. cbn [bind]. destruct (argmin_Some new1) as (k1 & y1 & Y1); [apply VN; lia|]. rewrite Y1. cbn [bind].
  destruct (group_step m fit ds _ _ _ _ _ _ _ _ _ _ _ _ R1 N1 F1 GP1 GV1 V1 B1) as [OK1 LE1].
  set (P1 := scatter (g1 gr) pop1' (x_pop st)) in *. set (Va1 := scatter (g1 gr) new1 (x_val st)) in *.
  (* CoDE *)
  destruct (GT _ _ _ _ _ OK1 F2) as (pop2 & val2 & GP2 & GV2 & Lp2 & Lv2 & Fr2). rewrite GP2, GV2. cbn [bind].
  destruct (code_trials_total (e_c (dr k)) pop2) as (raw2 & T2); [lia|auto|].
  rewrite T2. cbn [bind]. destruct (code_trials_rows ds W _ _ _ Fr2 T2) as [L2 Fraw2].
  destruct (settle_all_ok expf ds mt W D (anneal1 k ngen) (c_vd (e_c (dr k))) raw2 Fraw2) as (off2 & O2 & L2' & Fo2). rewrite O2. cbn [bind].
  rewrite (scores_ok m fit ds W off2 Fo2).
  pose proof (gather_Forall2 _ _ _ _ _ _ GP2 GV2 (po_val _ _ _ _ _ _ _ _ OK1)) as FV2.
  destruct (code_picks_total off2 (combine pop2 val2) 0) as (pv2 & S2). { rewrite combine_length. lia. }
  rewrite S2. cbn [bind].
  pose proof (code_select_ok m fit ds pop2 val2 off2 pv2 ltac:(congruence) FV2 Fo2 S2) as V2.
  assert (Ln2 : length (map snd pv2) = length val2). { eapply Forall2_length. apply (va_le _ _ _ _ _ _ _ _ V2). }
  destruct (take_best_total best1 (map fst pv2) (map snd pv2)) as (best2 & B2).
  { apply VN. lia. } { rewrite (va_len _ _ _ _ _ _ _ _ V2). lia. }
  rewrite B2. cbn [bind]. destruct (argmin_Some (map snd pv2)) as (k2 & y2 & Y2); [apply VN; lia|]. rewrite Y2. cbn [bind].
  destruct (group_step m fit ds _ _ _ _ _ _ _ _ _ _ _ _ OK1 N2 F2 GP2 GV2 V2 B2) as [OK2 LE2].
  set (P2 := scatter (g2 gr) (map fst pv2) P1) in *. set (Va2 := scatter (g2 gr) (map snd pv2) Va1) in *.
  (* EPSDE *)
  destruct (GT _ _ _ _ _ OK2 F3) as (pop3 & val3 & GP3 & GV3 & Lp3 & Lv3 & Fr3). rewrite GP3, GV3. cbn [bind].
  destruct (traverse_total_idx (fun k0 (_ : list Q) => ep_para (e_p (dr k)) spara k (x_rate st) (x_pp st) k0) pop3 0) as (pars & PR).
  { intros i x _ _. apply ep_para_total; auto. }
  rewrite PR. cbn [bind].
  assert (Lpars : length pars = length pop3) by (apply (traverse_spec _ _ _ _ PR)).
  destruct (traverse_total_idx (fun i (xq : list Q * (para * nat)) => ep_trial ds (e_p (dr k)) (fst (x_bm st)) pop3 (fst (snd xq)) i (fst xq)) (combine pop3 pars) 0) as (raw3 & T3).
  { intros i x _ _. apply ep_trial_total; auto. lia. }
  rewrite T3. cbn [bind].
  destruct (ep_trials_rows ds _ _ _ _ _ R3 Fr3 Lpars T3) as [L3 Fraw3].
  destruct (settle_all_ok expf ds mt W D (anneal1 k ngen) (p_vd (e_p (dr k))) raw3 Fraw3) as (off3 & O3 & L3' & Fo3). rewrite O3. cbn [bind].
  rewrite (scores_ok m fit ds W off3 Fo3).
  pose proof (gather_Forall2 _ _ _ _ _ _ GP3 GV3 (po_val _ _ _ _ _ _ _ _ OK2)) as FV3.
  destruct (ep_select _ _) as [sel pv3] eqn:S3.
  pose proof (ep_select_ok expf m fit ds pop3 val3 off3 pars _ _ _ ltac:(congruence) Lpars FV3 Fo3 S3) as V3.
  assert (Ln3 : length (map snd pv3) = length val3). { eapply Forall2_length. apply (va_le _ _ _ _ _ _ _ _ V3). }
  destruct (take_best_total best2 (map fst pv3) (map snd pv3)) as (best3 & B3).
  { apply VN. lia. } { rewrite (va_len _ _ _ _ _ _ _ _ V3). lia. }
  rewrite B3. cbn [bind]. destruct (argmin_Some (map snd pv3)) as (k3 & y3 & Y3); [apply VN; lia|]. rewrite Y3. cbn [bind].
  destruct (np_delete_total (s_pp sel) (s_rrr sel)) as (pp & EPP).
  { eapply ep_select_pp; [| |exact S3].
    - apply Forall_forall. intros [[xv uf] [q rr]] Hx. cbn [snd]. cbn [s_pp]. apply in_combine_r in Hx.
      apply In_nth_error in Hx. destruct Hx as (i & Ei).
      destruct (nth_of_lt pop3 i) as (x & Ex). { rewrite <- Lpars. apply nth_error_Some. congruence. }
      destruct (traverse_spec _ _ _ _ PR) as (_ & Z). destruct (Z i x Ex) as (q' & Eq' & Hq'). rewrite Ei in Eq'. inversion Eq'; subst.
      eapply ep_para_rr; eauto.
    - constructor. }
  rewrite EPP. cbn [bind].
  eexists. split; [reflexivity|]. split; cbn [x_arch x_grp].
  - apply (archive_ok _ _ _ _ _ DC AR).
  - exists win, (e_perm (dr k)). auto.
Qed.

Theorem ed_total lambda npop ngen ng sd dr init s : start_draws_ok npop sd -> (forall k, draws_ok npop (dr k)) ->
  slice_index lambda npop = Some s -> 7 <= npop - 2 * s -> (forall k, enough_draws npop s (dr k)) -> 0 < ng < ngen ->
  length init = npop -> Forall row init ->
  exists r, ed_evolute expf m fit ds mt lambda npop ngen ng sd dr init = Some r.
Proof.
  intros (SP1 & SP2) DR ES Hb ED Hng LI FI. pose proof (slice_pos _ _ _ ES) as S7.
  unfold ed_evolute. rewrite ES. cbn [bind]. destruct (ng <? ngen) eqn:E1; [|apply Nat.ltb_ge in E1; lia]. cbn [negb].
  destruct (length init =? npop) eqn:E2; [|apply Nat.eqb_neq in E2; lia]. cbn [negb].
  destruct (settle_all_ok expf ds mt W D 1 (i_vd sd) init FI) as (pop & EP & LP & FP). rewrite EP. cbn [bind].
  assert (LS : length (scores m fit ds pop) = npop) by (unfold scores; rewrite map_length; lia).
  destruct (argmin_Some (scores m fit ds pop)) as (k & y & EA). { intros Z. rewrite Z in LS. simpl in LS. lia. }
  rewrite EA. cbn [bind]. pose proof EA as EA'. apply argmin_spec in EA'. destruct EA' as (EA' & _).
  destruct (nth_of_lt pop k) as (x & EX). { rewrite LP, LI, <- LS. apply nth_error_Some. congruence. }
  rewrite EX. cbn [bind].
  assert (LPm : length (i_perm sd) = npop) by (rewrite (Permutation_length SP1), seq_length; auto).
  assert (F3 : Forall (fun i => i < length pop) (g3 (split_groups s 0 (i_perm sd)))).
  { apply Forall_forall. intros i Hi. cbn [split_groups g3] in Hi. apply in_firstn in Hi. apply (Permutation_in _ SP1) in Hi. apply in_seq in Hi. lia. }
  destruct (gather_total _ pop F3) as (third & ET). rewrite ET. cbn [bind].
  assert (Ft : Forall (feasible ds) third) by (eapply gather_Forall; eauto).
  assert (Frt : Forall row third) by (eapply Forall_impl; [|exact Ft]; intros a Ha; apply feasible_length; auto).
  destruct (settle_all_ok expf ds mt W D 1 (i_vd3 sd) third Frt) as (again & EG & LG & FG). rewrite EG. cbn [bind].
  assert (L3 : length again = s). { rewrite LG, (gather_length _ _ _ ET). cbn [split_groups g3]. rewrite firstn_length. lia. }
  destruct (argmin_Some (scores m fit ds again)) as (k3 & y3 & EA3).
  { intros Z. apply (f_equal (@length Q)) in Z. unfold scores in Z. rewrite map_length in Z. simpl in Z. lia. }
  rewrite EA3. cbn [bind]. apply argmin_spec in EA3. destruct EA3 as (EA3 & _).
  destruct (nth_of_lt again k3) as (x3 & EX3).
  { assert (Z : k3 < length (scores m fit ds again)) by (apply nth_error_Some; congruence). unfold scores in Z. rewrite map_length in Z. auto. }
  rewrite EX3. cbn [bind].
  set (st0 := ESt _ _ _ _ _ _ _ _ _ _ _ _ _ _).
  assert (C : length (g1 (split_groups s 0 (i_perm sd))) = npop - 2 * s). { cbn [split_groups g1]. rewrite skipn_length. lia. }
  rewrite C.
  assert (I0 : run_ok m fit ds npop s 0 pop st0).
  { pose proof (pop_start m fit ds W pop k y x FP EA EX) as PS. rewrite LP, LI in PS.
    unfold st0. rewrite (map_arg ds W pop FP).
    split; cbn [x_pop x_val x_best x_log x_arch x_bm x_trace x_hist map]; auto; try (constructor; fail).
    * cbn [fst]. apply feasible_length. rewrite Forall_forall in FG. apply FG. eapply nth_error_In; eauto.
    * discriminate.
    * apply never_worse_nil.
    * intros h [].
    * discriminate.
    * exists []. rewrite app_nil_r. auto.
    * unfold evaluations. simpl. lia. }
  assert (T0 : tot_ok npop s (npop - 2 * s) st0).
  { split; cbn [x_arch x_grp st0]; [simpl; lia|]. exists 0, (i_perm sd). auto. }
  destruct (gens_nat_total (ed_gen expf m fit ds mt s (npop - 2 * s) ngen ng (i_spara sd) dr)
     (fun k st => run_ok m fit ds npop s k pop st /\ tot_ok npop s (npop - 2 * s) st)) with (n := ngen) (g := 0) (s := st0) as (st & GS & _); auto.
  - intros k' st _ [R T]. destruct (ed_gen_total npop s (npop - 2 * s) ngen ng (i_spara sd) dr k' pop st) as (st' & E & T'); auto; [lia|].
    exists st'. split; auto. split; auto. eapply ed_step; [exact W|exact D| | |exact R|exact E]; auto; lia.
  - rewrite GS. cbn [bind]. eauto.
Qed.
End Total.
