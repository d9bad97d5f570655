From Coq Require Import List Arith ZArith QArith Lia Lqa Bool Permutation.
From Verif Require ND_Proofs.
From Verif Require Import Base BaseFacts Space_Model Space_Spec Space_Proofs Opt_Model Opt_Spec Opt_Facts Opt_Facts2 Pop_Model Pop_Spec Pop_Proofs Swarm_Model EDEV_Model EDEV_Spec EDEV_Proofs.
Import ListNotations.
Open Scope nat_scope.

Local Opaque gnR1R2 reject.

Lemma last_default {A} (l : list A) : forall x d d', last (x :: l) d = last (x :: l) d'.
Proof. induction l as [|y l IH]; intros x d d'; auto. change (last (y :: l) d = last (y :: l) d'). apply IH. Qed.
Lemma last_cons {A} (l : list A) c a : last (c :: l) a = last l c.
Proof. destruct l as [|x l]; auto. change (last (x :: l) a = last (x :: l) c). apply last_default. Qed.
Lemma chain_snoc {A} (R : A -> A -> Prop) l : forall a b, chain R a l -> R (last l a) b -> chain R a (l ++ [b]).
Proof.
  induction l as [|c l IH]; intros a b C H; [simpl in *; auto|].
  destruct C as [C1 C2]. split; auto. rewrite last_cons in H. apply IH; auto.
Qed.
Lemma last_snoc {A} (l : list A) d x : last (l ++ [x]) d = x.
Proof. induction l as [|y l IH]; simpl; auto. destruct (l ++ [x]) eqn:E; auto. destruct l; discriminate. Qed.

Lemma gather_scatter_same {A} idx (new l : list A) : NoDup idx -> Forall (fun i => i < length l) idx -> length new = length idx ->
  gather idx (scatter idx new l) = Some new.
Proof.
  intros N F L. apply gather_spec. apply Forall2_nth. split; auto. intros k i x Hi Hx.
  eapply scatter_in; eauto. rewrite Forall_forall in F. apply F. eapply nth_error_In; eauto.
Qed.
Lemma gather_scatter_other {A} idx idx' (new l r : list A) : (forall i, In i idx -> ~ In i idx') ->
  gather idx l = Some r -> gather idx (scatter idx' new l) = Some r.
Proof.
  intros H G. apply gather_spec. apply gather_spec in G.
  induction G as [|i x idx r Hx G IH]; constructor.
  - rewrite scatter_out; auto. apply H. left; auto.
  - apply IH. intros j Hj. apply H. right; auto.
Qed.

Lemma skipn_twice {A} n : forall k (l : list A), skipn n (skipn k l) = skipn (k + n) l.
Proof. induction k as [|k IH]; intros [|x l]; simpl; auto. destruct n; auto. Qed.
Lemma split_concat {A} s (l : list A) : firstn s l ++ firstn s (skipn s l) ++ skipn (2 * s) l = l.
Proof.
  rewrite <- (firstn_skipn s l) at 4. f_equal. rewrite <- (firstn_skipn s (skipn s l)) at 2. f_equal.
  rewrite skipn_twice. f_equal. lia.
Qed.
Lemma split_perm s win perm : let gr := split_groups s win perm in Permutation (g1 gr ++ g2 gr ++ g3 gr) perm.
Proof.
  cbv zeta. rewrite <- (split_concat s perm) at 4.
  set (a := firstn s perm). set (b := firstn s (skipn s perm)). set (c := skipn (2 * s) perm).
  unfold split_groups. fold a b c. destruct win as [|[|w]]; cbn [g1 g2 g3].
  - rewrite app_assoc. rewrite (Permutation_app_comm (c ++ b) a). apply Permutation_app_head. apply Permutation_app_comm.
  - rewrite (app_assoc b c a). rewrite (Permutation_app_comm (b ++ c) a). auto.
  - auto.
Qed.
Lemma split_sizes s win perm n : length perm = n -> 2 * s < n -> let gr := split_groups s win perm in
  exists big, (big = g1 gr \/ big = g2 gr \/ big = g3 gr) /\ length big = n - 2 * s /\
    Permutation [length (g1 gr); length (g2 gr); length (g3 gr)] [length big; s; s].
Proof.
  intros L H. cbv zeta. exists (skipn (2 * s) perm).
  assert (A : length (firstn s perm) = s) by (rewrite firstn_length; lia).
  assert (B : length (firstn s (skipn s perm)) = s) by (rewrite firstn_length, skipn_length; lia).
  unfold split_groups. destruct win as [|[|w]]; cbn [g1 g2 g3]; rewrite A, B; rewrite skipn_length.
  - auto.
  - split; auto. split; [lia|]. apply perm_swap.
  - split; auto. split; [lia|]. apply (Permutation_app_comm [s; s] [length perm - 2 * s]).
Qed.
Lemma split_nonempty s win perm n : length perm = n -> 1 <= s -> let gr := split_groups s win perm in
  g1 gr <> [] -> g2 gr <> [] -> g3 gr <> [] -> 2 * s < n.
Proof.
  intros L Hs. cbv zeta. intros A B C.
  assert (X : skipn (2 * s) perm <> []).
  { unfold split_groups in *. destruct win as [|[|w]]; cbn [g1 g2 g3] in *; auto. }
  destruct (Nat.lt_ge_cases (2 * s) n); auto. exfalso. apply X. apply skipn_all2. lia.
Qed.

Section Run.
Context (expf : Q -> Q) (m : mode) (fit : list Q -> Q) (ds : list dimn) (mt : imethod).
Context (W : wf_dims ds) (D : discrete_ok mt ds).
Notation row := (fun v : list Q => length v = length ds).
Notation g := (fun x => as_min m (fit x)).
Notation snap := (groups * list (list Q) * list Q)%type.

Lemma as_min_eq (a b : Q) : (a == b)%Q -> (as_min m a == as_min m b)%Q.
Proof. intros H. destruct m; simpl; rewrite H; reflexivity. Qed.

Lemma group_best_of P idx p v k y : gather idx P = Some p -> Forall2 (fun x v => (v == g x)%Q) p v -> argmin v = Some (k, y) ->
  group_best m fit P idx (as_min m y).
Proof.
  intros G F E. apply argmin_spec in E. destruct E as (E1 & E2 & _). pose proof F as F'. apply Forall2_nth in F'. destruct F' as [L F'].
  apply gather_spec in G. apply Forall2_nth in G. destruct G as [L' G]. split.
  - destruct (nth_of_lt idx k) as (i & Ei). { rewrite L', L. apply nth_error_Some. congruence. }
    destruct (nth_of_lt p k) as (x & Ex). { rewrite L. apply nth_error_Some. congruence. }
    exists i, x. split; [eapply nth_error_In; eauto|]. split; [eapply G; eauto|].
    rewrite (as_min_eq _ _ (F' _ _ _ Ex E1)). apply as_min_invol.
  - intros i x Hi Hx. apply In_nth_error in Hi. destruct Hi as (j & Ej).
    destruct (nth_of_lt p j) as (x' & Ex'). { rewrite <- L'. apply nth_error_Some. congruence. }
    pose proof (G _ _ _ Ej Ex') as E. rewrite Hx in E. inversion E; subst.
    destruct (nth_of_lt v j) as (w & Ew). { rewrite <- L. apply nth_error_Some. congruence. }
    apply as_min_good. rewrite as_min_invol. specialize (F' _ _ _ Ex' Ew). specialize (E2 w (nth_error_In _ _ Ew)).
    cbv beta in F'. lra.
Qed.
Lemma group_best_all n P V b L : pop_ok m fit ds n P V b L -> group_best m fit P (seq 0 n) (as_min m (snd b)).
Proof.
  intros [A1 A2 A3 A4 A5 A6 A7]. apply Forall2_nth in A3. destruct A3 as [LV A3]. split.
  - destruct A6 as (v & Hv & Ev). apply In_nth_error in Hv. destruct Hv as (i & Ei).
    destruct (nth_of_lt P i) as (x & Ex). { rewrite LV. apply nth_error_Some. congruence. }
    exists i, x. split; [apply in_seq; rewrite <- A1; split; [lia|]; simpl; apply nth_error_Some; congruence|].
    split; auto. specialize (A3 _ _ _ Ex Ei). cbv beta in A3.
    rewrite (as_min_eq (snd b) (as_min m (fit x))); [apply as_min_invol|]. rewrite <- A3. symmetry. auto.
  - intros i x _ Hx. apply as_min_good. rewrite as_min_invol. apply A5. apply A4. eapply nth_error_In; eauto.
Qed.

Record run_ok (npop s k : nat) (start : list (list Q)) (st : estate) : Prop := RunOk {
  ro_pop : pop_ok m fit ds npop (x_pop st) (x_val st) (x_best st) (x_log st);
  ro_arch : Forall row (map fst (x_arch st));
  ro_bm : row (fst (x_bm st));
  ro_len : length (x_trace st) = k;
  ro_part : Forall (fun t : snap => partition npop s (fst (fst t))) (x_trace st);
  ro_slots : Forall (fun t : snap => slots_ok m fit ds npop (snd (fst t)) (snd t)) (x_trace st);
  ro_hist : Forall2 (entry_ok m fit npop) (x_trace st) (x_hist st);
  ro_chain : chain (no_slot_worse m fit) start (map (fun t : snap => snd (fst t)) (x_trace st));
  ro_last : last (map (fun t : snap => snd (fst t)) (x_trace st)) start = x_pop st;
  ro_lastv : forall t, last (map Some (x_trace st)) None = Some t -> snd t = x_val st;
  ro_mono : never_worse m (map (fun h : Q * Q * Q * Q => fst (fst (fst h))) (x_hist st));
  ro_head : forall h, In h (map (fun h : Q * Q * Q * Q => fst (fst (fst h))) (x_hist st)) -> as_good m (as_min m (snd (x_best st))) h;
  ro_lasth : forall h, last (map (fun h : Q * Q * Q * Q => Some (fst (fst (fst h)))) (x_hist st)) None = Some h -> h = as_min m (snd (x_best st));
  ro_pre : exists rest, x_log st = start ++ rest;
  ro_count : length (x_log st) = npop + evaluations (x_trace st) }.

Lemma evaluations_snoc tr (t : snap) : evaluations (tr ++ [t]) =
  evaluations tr + (length (g1 (fst (fst t))) + 3 * length (g2 (fst (fst t))) + length (g3 (fst (fst t)))).
Proof. unfold evaluations. rewrite map_app, list_sum_app. simpl. lia. Qed.

Lemma slots_worse n P V b L P' V' b' L' : pop_ok m fit ds n P V b L -> pop_ok m fit ds n P' V' b' L' -> Forall2 Qle V' V ->
  no_slot_worse m fit P P'.
Proof.
  intros A B H. apply Forall2_nth. split; [rewrite (po_n _ _ _ _ _ _ _ _ A), (po_n _ _ _ _ _ _ _ _ B); auto|].
  intros i x x' Hx Hx'. pose proof (po_val _ _ _ _ _ _ _ _ A) as F. pose proof (po_val _ _ _ _ _ _ _ _ B) as F'.
  apply Forall2_nth in F. apply Forall2_nth in F'. apply Forall2_nth in H. destruct F as [L1 F]. destruct F' as [L1' F']. destruct H as [L2 H].
  destruct (nth_of_lt V i) as (v & Ev). { rewrite <- L1. apply nth_error_Some. congruence. }
  destruct (nth_of_lt V' i) as (v' & Ev'). { rewrite <- L1'. apply nth_error_Some. congruence. }
  apply as_min_good. rewrite <- (F _ _ _ Hx Ev). rewrite <- (F' _ _ _ Hx' Ev'). eauto.
Qed.

Lemma pop_best_mono b p v b' : take_best b p v = Some b' -> (snd b' <= snd b)%Q.
Proof.
  intros H. unfold take_best in H. apply bind_Some in H. destruct H as ([k y] & E & H).
  destruct (Qltb y (snd b)) eqn:Q1.
  - apply bind_Some in H. destruct H as (x & Ex & H). inversion H; subst. qprop. simpl. lra.
  - inversion H; subst. apply Qle_refl.
Qed.
Lemma argmin_nonempty v r : argmin v = Some r -> v <> [].
Proof. destruct v; [discriminate|congruence]. Qed.
Lemma map_fst_row (l : list (list Q * Q)) : Forall row (map fst l) <-> Forall (fun e => row (fst e)) l.
Proof. apply Forall_map. Qed.

Lemma uniq_insert_row e : forall l, row (fst e) -> Forall (fun e => row (fst e)) l -> Forall (fun e : list Q * Q => row (fst e)) (uniq_insert e l).
Proof.
  induction l as [|f l IH]; intros He F; simpl; auto. inversion F; subst.
  destruct (row_cmp (fst e) (fst f)); auto.
Qed.
Lemma uniq_row l : Forall (fun e => row (fst e)) l -> Forall (fun e : list Q * Q => row (fst e)) (uniq l).
Proof.
  unfold uniq. assert (X : forall acc, Forall (fun e => row (fst e)) acc -> Forall (fun e => row (fst e)) l ->
    Forall (fun e : list Q * Q => row (fst e)) (fold_left (fun acc e => uniq_insert e acc) l acc)); [|auto].
  induction l as [|e l IH]; intros acc A F; simpl; auto. inversion F; subst. apply IH; auto. apply uniq_insert_row; auto.
Qed.
Lemma archive_row cap perm arch new arch' : Forall row (map fst arch) -> Forall row (map fst new) ->
  update_archive cap perm arch new = Some arch' -> Forall row (map fst arch').
Proof.
  rewrite !map_fst_row. intros A B H. unfold update_archive in H.
  assert (U : Forall (fun e : list Q * Q => row (fst e)) (uniq (arch ++ new))) by (apply uniq_row; apply Forall_app; auto).
  destruct (cap <? _).
  - eapply gather_Forall; eauto.
  - inversion H; subst. auto.
Qed.
Lemma replaced_row w p (v : list Q) : Forall row p -> Forall row (map fst (replaced w (combine p v))).
Proof.
  intros F. unfold replaced. apply Forall_forall. intros x Hx. apply in_map_iff in Hx. destruct Hx as ([y z] & <- & Hx).
  apply in_map_iff in Hx. destruct Hx as ([b [y' z']] & E & Hx). simpl in E. inversion E; subst. apply filter_In in Hx.
  destruct Hx as [Hx _]. apply in_combine_r in Hx. apply in_combine_l in Hx. rewrite Forall_forall in F. simpl. auto.
Qed.

Lemma ep_select_bm l : forall s0 s' pv, row (fst (s_bm s0)) -> Forall (fun e => row (fst (snd (fst e)))) l ->
  ep_select s0 l = (s', pv) -> row (fst (s_bm s')).
Proof.
  induction l as [|[[xv uf] [q rr]] l IH]; intros s0 s' pv R F E; cbn [ep_select] in E.
  - inversion E; subst. auto.
  - inversion F as [|? ? Hu F']; subst. unfold ep_step in E. destruct (Qltb (snd uf) (snd xv)).
    + destruct (ep_select _ l) as [s2 out] eqn:Er. inversion E; subst. refine (IH _ _ _ _ F' Er). cbn [s_bm].
      destruct (Qltb _ _); auto.
    + destruct (ep_select _ l) as [s2 out] eqn:Er. inversion E; subst. refine (IH _ _ _ _ F' Er). auto.
Qed.

Lemma parts_facts n gr : Permutation (g1 gr ++ g2 gr ++ g3 gr) (seq 0 n) ->
  (NoDup (g1 gr) /\ NoDup (g2 gr) /\ NoDup (g3 gr)) /\
  (Forall (fun i => i < n) (g1 gr) /\ Forall (fun i => i < n) (g2 gr) /\ Forall (fun i => i < n) (g3 gr)) /\
  (forall i, In i (g1 gr) -> ~ In i (g2 gr)) /\ (forall i, In i (g1 gr) -> ~ In i (g3 gr)) /\ (forall i, In i (g2 gr) -> ~ In i (g3 gr)).
Proof.
  intros P. assert (N : NoDup (g1 gr ++ g2 gr ++ g3 gr)).
  { eapply Permutation_NoDup; [apply Permutation_sym; exact P|apply seq_NoDup]. }
  apply ND_Proofs.NoDup_app_iff in N. destruct N as (N1 & N23 & X). apply ND_Proofs.NoDup_app_iff in N23. destruct N23 as (N2 & N3 & Y).
  assert (R : forall i, In i (g1 gr ++ g2 gr ++ g3 gr) -> i < n).
  { intros i Hi. apply (Permutation_in _ P) in Hi. apply in_seq in Hi. lia. }
  split; auto. split.
  - split; [|split]; apply Forall_forall; intros i Hi; apply R; rewrite !in_app_iff; auto.
  - split; [|split]; auto; intros i H1 H2; eapply X; eauto; apply in_app_iff; auto.
Qed.

Lemma ed_step npop s cap ngen ng spara dr k start st st' : 1 <= s -> draws_ok npop (dr k) ->
  run_ok npop s k start st -> ed_gen expf m fit ds mt s cap ngen ng spara dr k st = Some st' -> run_ok npop s (S k) start st'.
Proof.
  intros Hs (DP & _ & _) [R1 R2 R3 R4 R5 R6 R7 R8 R9 R10 R11 R12 R13 R14 R15] H. unfold ed_gen in H.
  apply bind_Some in H. destruct H as ([win chg] & _ & H).
  set (gr := split_groups s win (e_perm (dr k))) in *.
  assert (PG : Permutation (g1 gr ++ g2 gr ++ g3 gr) (seq 0 npop)).
  { etransitivity; [apply split_perm|exact DP]. }
  destruct (parts_facts _ _ PG) as ((N1 & N2 & N3) & (F1 & F2 & F3) & X12 & X13 & X23).
  assert (RP : forall x, In x (x_pop st) -> row x).
  { intros x Hx. apply feasible_length. pose proof (po_feas _ _ _ _ _ _ _ _ R1) as Z. rewrite Forall_forall in Z. auto. }
  (* JADE *)
  apply bind_Some in H. destruct H as (pop1 & GP1 & H). apply bind_Some in H. destruct H as (val1 & GV1 & H).
  apply bind_Some in H. destruct H as (raw1 & T1 & H). apply bind_Some in H. destruct H as (off1 & O1 & H).
  apply bind_Some in H. destruct H as (arch & AR & H). apply bind_Some in H. destruct H as (best1 & B1 & H).
  apply bind_Some in H. destruct H as ([k1 y1] & Y1 & H).
  assert (Fr1 : Forall row pop1). { apply Forall_forall. intros x Hx. apply RP. eapply gather_In; eauto. }
  destruct (jade_trials_rows ds W _ _ _ _ _ Fr1 R2 T1) as [L1 Fraw1].
  destruct (settle_all_some expf ds mt W D _ _ _ _ Fraw1 O1) as [L1' Fo1].
  rewrite (scores_ok m fit ds W off1 Fo1) in *.
  pose proof (gather_Forall2 _ _ _ _ _ _ GP1 GV1 (po_val _ _ _ _ _ _ _ _ R1)) as FV1.
  pose proof (jade_select_ok expf m fit ds pop1 val1 off1 ltac:(congruence) FV1 Fo1) as V1.
  set (pop1' := pick_rows (jade_wins val1 (map g off1)) off1 pop1) in *. set (new1 := jade_vals val1 (map g off1)) in *.
  destruct (group_step m fit ds _ _ _ _ _ _ _ _ _ _ _ _ R1 N1 F1 GP1 GV1 V1 B1) as [OK1 LE1].
  (* CoDE *)
  set (P1 := scatter (g1 gr) pop1' (x_pop st)) in *. set (Va1 := scatter (g1 gr) new1 (x_val st)) in *.
  apply bind_Some in H. destruct H as (pop2 & GP2 & H). apply bind_Some in H. destruct H as (val2 & GV2 & H).
  apply bind_Some in H. destruct H as (raw2 & T2 & H). apply bind_Some in H. destruct H as (off2 & O2 & H).
  apply bind_Some in H. destruct H as (pv2 & S2 & H). apply bind_Some in H. destruct H as (best2 & B2 & H).
  apply bind_Some in H. destruct H as ([k2 y2] & Y2 & H).
  assert (Fr2 : Forall row pop2).
  { apply Forall_forall. intros x Hx. apply feasible_length. pose proof (po_feas _ _ _ _ _ _ _ _ OK1) as Z. rewrite Forall_forall in Z.
    apply Z. eapply gather_In; eauto. }
  destruct (code_trials_rows ds W _ _ _ Fr2 T2) as [L2 Fraw2].
  destruct (settle_all_some expf ds mt W D _ _ _ _ Fraw2 O2) as [L2' Fo2].
  rewrite (scores_ok m fit ds W off2 Fo2) in *.
  pose proof (gather_Forall2 _ _ _ _ _ _ GP2 GV2 (po_val _ _ _ _ _ _ _ _ OK1)) as FV2.
  pose proof (code_select_ok m fit ds pop2 val2 off2 pv2 ltac:(congruence) FV2 Fo2 S2) as V2.
  destruct (group_step m fit ds _ _ _ _ _ _ _ _ _ _ _ _ OK1 N2 F2 GP2 GV2 V2 B2) as [OK2 LE2].
  (* EPSDE *)
  set (P2 := scatter (g2 gr) (map fst pv2) P1) in *. set (Va2 := scatter (g2 gr) (map snd pv2) Va1) in *.
  apply bind_Some in H. destruct H as (pop3 & GP3 & H). apply bind_Some in H. destruct H as (val3 & GV3 & H).
  apply bind_Some in H. destruct H as (pars & PR & H). apply bind_Some in H. destruct H as (raw3 & T3 & H).
  apply bind_Some in H. destruct H as (off3 & O3 & H).
  destruct (ep_select _ _) as [sel pv3] eqn:S3 in H. apply bind_Some in H. destruct H as (best3 & B3 & H).
  apply bind_Some in H. destruct H as ([k3 y3] & Y3 & H). apply bind_Some in H. destruct H as (pp & _ & H).
  assert (Fr3 : Forall row pop3).
  { apply Forall_forall. intros x Hx. apply feasible_length. pose proof (po_feas _ _ _ _ _ _ _ _ OK2) as Z. rewrite Forall_forall in Z.
    apply Z. eapply gather_In; eauto. }
  assert (Lpars : length pars = length pop3) by (apply (traverse_spec _ _ _ _ PR)).
  destruct (ep_trials_rows ds _ _ _ _ _ R3 Fr3 Lpars T3) as [L3 Fraw3].
  destruct (settle_all_some expf ds mt W D _ _ _ _ Fraw3 O3) as [L3' Fo3].
  rewrite (scores_ok m fit ds W off3 Fo3) in *.
  pose proof (gather_Forall2 _ _ _ _ _ _ GP3 GV3 (po_val _ _ _ _ _ _ _ _ OK2)) as FV3.
  pose proof (ep_select_ok expf m fit ds pop3 val3 off3 pars _ _ _ ltac:(congruence) Lpars FV3 Fo3 S3) as V3.
  destruct (group_step m fit ds _ _ _ _ _ _ _ _ _ _ _ _ OK2 N3 F3 GP3 GV3 V3 B3) as [OK3 LE3].
  set (P3 := scatter (g3 gr) (map fst pv3) P2) in *. set (Va3 := scatter (g3 gr) (map snd pv3) Va2) in *.
  rewrite <- !app_assoc in OK3. rewrite (map_arg ds W (off1 ++ off2 ++ off3)) in H by (rewrite !Forall_app; auto).
  inversion H; subst st'; clear H.
  (* assembled *)
  assert (LE : Forall2 Qle Va3 (x_val st)).
  { assert (TR : forall a b c, Forall2 Qle a b -> Forall2 Qle b c -> Forall2 Qle a c).
    { clear. intros a b c Hab. revert c. induction Hab; intros c Hbc; inversion Hbc; subst; constructor; auto. eapply Qle_trans; eauto. }
    eapply TR; [exact LE3|]. eapply TR; [exact LE2|exact LE1]. }
  pose proof (slots_worse _ _ _ _ _ _ _ _ _ R1 OK3 LE) as WS.
  assert (BM : (snd best3 <= snd (x_best st))%Q).
  { pose proof (pop_best_mono _ _ _ _ B1). pose proof (pop_best_mono _ _ _ _ B2). pose proof (pop_best_mono _ _ _ _ B3). lra. }
  assert (Ln1 : length pop1 = length (g1 gr)) by (eapply gather_length; eauto).
  assert (Ln2 : length pop2 = length (g2 gr)) by (eapply gather_length; eauto).
  assert (Ln3 : length pop3 = length (g3 gr)) by (eapply gather_length; eauto).
  assert (LX : length (x_pop st) = npop) by apply R1.
  assert (LV : forall P V b L, pop_ok m fit ds npop P V b L -> length V = npop).
  { intros P V b L Z. rewrite <- (po_n _ _ _ _ _ _ _ _ Z). symmetry. eapply Forall2_length. apply (po_val _ _ _ _ _ _ _ _ Z). }
  assert (SZ : 2 * s < npop).
  { eapply (split_nonempty s win (e_perm (dr k)) npop); auto.
    - rewrite (Permutation_length DP), seq_length. auto.
    - fold gr. intros Z. apply (argmin_nonempty _ _ Y1). rewrite Z in Ln1. destruct pop1; [|discriminate].
      inversion FV1; subst. destruct off1; [auto|]. simpl in L1'. simpl in L1. lia.
    - fold gr. intros Z. apply (argmin_nonempty _ _ Y2). rewrite Z in Ln2. pose proof (va_len _ _ _ _ _ _ _ _ V2) as Y.
      rewrite map_length in *. destruct pv2; auto. simpl in Y, Ln2. lia.
    - fold gr. intros Z. apply (argmin_nonempty _ _ Y3). rewrite Z in Ln3. pose proof (va_len _ _ _ _ _ _ _ _ V3) as Y.
      rewrite map_length in *. destruct pv3; auto. simpl in Y, Ln3. lia. }
  assert (EN : entry_ok m fit npop (gr, P3, Va3) (as_min m (snd best3), as_min m y1, as_min m y2, as_min m y3)).
  { split; [eapply group_best_all; eauto|].
    split; [|split].
    - eapply group_best_of; [|exact (va_val _ _ _ _ _ _ _ _ V1)|exact Y1].
      apply gather_scatter_other; auto. apply gather_scatter_other; auto. apply gather_scatter_same; auto.
      + rewrite LX; auto.
      + rewrite <- Ln1. apply (va_len _ _ _ _ _ _ _ _ V1).
    - eapply group_best_of; [|exact (va_val _ _ _ _ _ _ _ _ V2)|exact Y2].
      apply gather_scatter_other; auto. apply gather_scatter_same; auto.
      + rewrite (po_n _ _ _ _ _ _ _ _ OK1); auto.
      + rewrite <- Ln2. apply (va_len _ _ _ _ _ _ _ _ V2).
    - eapply group_best_of; [|exact (va_val _ _ _ _ _ _ _ _ V3)|exact Y3].
      apply gather_scatter_same; auto.
      + rewrite (po_n _ _ _ _ _ _ _ _ OK2); auto.
      + rewrite <- Ln3. apply (va_len _ _ _ _ _ _ _ _ V3). }
  split; cbn [x_pop x_val x_best x_log x_arch x_bm x_trace x_hist].
  - exact OK3.
  - eapply archive_row; [exact R2| |exact AR]. apply replaced_row. auto.
  - refine (ep_select_bm _ _ _ _ _ _ S3); [exact R3|]. apply Forall_forall. intros [[xv uf] q] Hx. cbn [fst snd].
    apply in_combine_l in Hx. apply in_combine_r in Hx. destruct uf as [u f]. apply in_combine_l in Hx. cbn [fst].
    apply feasible_length. rewrite Forall_forall in Fo3. auto.
  - rewrite app_length. simpl. lia.
  - apply Forall_app. split; auto. constructor; auto. cbn [fst]. split; auto. apply split_sizes; auto.
    rewrite (Permutation_length DP), seq_length. auto.
  - apply Forall_app. split; auto. constructor; auto. cbn [fst snd]. split; [apply OK3|]. split; apply OK3.
  - apply Forall2_app; auto.
  - rewrite map_app. cbn [map fst snd]. apply chain_snoc; auto. rewrite R9. auto.
  - rewrite map_app. cbn [map fst snd]. apply last_snoc.
  - intros t Ht. rewrite map_app in Ht. cbn [map] in Ht. rewrite last_snoc in Ht. inversion Ht; subst. auto.
  - rewrite map_app. cbn [map fst]. apply never_worse_snoc; auto. intros v Hv. eapply as_good_trans; [|apply R12; exact Hv].
    apply as_min_good. rewrite !as_min_invol. auto.
  - intros h Hh. rewrite map_app in Hh. apply in_app_iff in Hh. destruct Hh as [Hh|[<-|[]]].
    + eapply as_good_trans; [|apply R12; exact Hh]. apply as_min_good. rewrite !as_min_invol. auto.
    + cbn [fst]. apply as_good_refl.
  - intros h Hh. rewrite map_app in Hh. cbn [map] in Hh. rewrite last_snoc in Hh. inversion Hh; subst. auto.
  - destruct R14 as (rest & ->). rewrite <- app_assoc. eauto.
  - rewrite app_length, R15, evaluations_snoc, !app_length. cbn [fst]. lia.
Qed.
End Run.
