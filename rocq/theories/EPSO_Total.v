(** When an EPSO run ends without raising. *)
From Coq Require Import List Arith ZArith QArith Qround Bool Lia Lqa.
From Verif Require Import Base BaseFacts Space_Model Space_Spec Space_Facts Opt_Model Opt_Spec Opt_Facts Opt_Facts2
  Pop_Model Pop_Spec Pop_Proofs Swarm_Model Swarm_Proofs HHO_Proofs HCLPSO_Model HCLPSO_Spec HCLPSO_Proofs EPSO_Model EPSO_Spec EPSO_Proofs EPSO_Rates.
Import ListNotations.
Open Scope nat_scope.

Lemma traverse_total_P {A B} (f : nat -> A -> option B) (P : B -> Prop) l : forall i,
  (forall k a, i <= k < i + length l -> In a l -> exists b, f k a = Some b /\ P b) -> exists l', traverse f i l = Some l' /\ Forall P l'.
Proof.
  induction l as [|a l IH]; intros i H; cbn [traverse]; [exists []; auto|].
  destruct (H i a) as (b & E & Pb); [simpl; lia|left; auto|]. rewrite E. cbn [bind].
  destruct (IH (S i)) as (r & Er & Pr). { intros k c Hk Hc. apply H; [simpl; lia|right; auto]. }
  rewrite Er. cbn [bind]. eauto.
Qed.

Lemma upto_app5 (S a b c d e : Q) : ~ (S == 0)%Q -> (a + b + c + d + e == S)%Q -> (upto 5 [a / S; b / S; c / S; d / S; e / S] == 1)%Q.
Proof.
  intros H E. cbn [upto]. setoid_replace (a / S + (b / S + (c / S + (d / S + (e / S + 0)))))%Q with ((a + b + c + d + e) / S)%Q by (field; auto).
  rewrite E. field. auto.
Qed.

Lemma refresh_sum k flag mem mm fl : ep_refresh k flag mem = Some (mm, fl) ->
  (forall m0, mem = Some m0 -> mem_ok m0 /\ (upto 5 (em_pk m0) == 1)%Q) -> (upto 5 (em_pk mm) == 1)%Q.
Proof.
  unfold ep_refresh. intros H K. destruct (k <=? 1); [inversion H; subst; vm_compute; reflexivity|].
  apply bind_Some in H. destruct H as (m0 & E & H). destruct (K m0 E) as ((_ & _ & K3 & K4 & _) & K6). destruct flag; [|inversion H; subst; auto].
  cbv zeta in H. inversion H; subst mm fl; clear H. cbn [em_pk].
  destruct (list5 _ K3) as (a0 & a1 & a2 & a3 & a4 & ->). destruct (list5 _ K4) as (b0 & b1 & b2 & b3 & b4 & ->).
  cbn [map2]. set (h := fun a b : nat => (qnat a / qnat (if a + b =? 0 then 1 else a + b) + (1 # 100))%Q).
  assert (P : forall a b, (1#100 <= h a b)%Q).
  { intros a b. unfold h. assert (0 <= qnat a / qnat (if a + b =? 0 then 1 else a + b))%Q; [|lra].
    assert (D : (0 < qnat (if a + b =? 0 then 1 else a + b))%Q).
    { unfold qnat. change 0%Q with (inject_Z 0). rewrite <- Zlt_Qlt. destruct (a + b =? 0) eqn:Z; [lia|]. apply Nat.eqb_neq in Z. lia. }
    apply Qle_shift_div_l; auto. unfold qnat. rewrite Qmult_0_l. change 0%Q with (inject_Z 0). rewrite <- Zle_Qle. lia. }
  change (upto 5 (map (fun q => (q / qsum [h a0 b0; h a1 b1; h a2 b2; h a3 b3; h a4 b4])%Q) [h a0 b0; h a1 b1; h a2 b2; h a3 b3; h a4 b4]) == 1)%Q.
  pose proof (P a0 b0). pose proof (P a1 b1). pose proof (P a2 b2). pose proof (P a3 b3). pose proof (P a4 b4).
  cbn [map]. apply upto_app5; unfold qsum; cbn [fold_left]; lra.
Qed.

Lemma row_sum lp evs k row : row_spec lp evs k row -> (upto 5 row == 1)%Q.
Proof.
  unfold row_spec, row_is. intros (L & H). destruct (list5 _ L) as (a & b & c & d & e & ->). cbn [upto].
  pose proof (H 0 ltac:(lia)) as H0. pose proof (H 1 ltac:(lia)) as H1. pose proof (H 2 ltac:(lia)) as H2. pose proof (H 3 ltac:(lia)) as H3. pose proof (H 4 ltac:(lia)) as H4.
  cbn [nth] in *. rewrite H0, H1, H2, H3, H4. destruct (2 <=? period_end lp k); [|lra].
  rewrite <- (share_sum (during (max 1 (period_end lp k - lp)) (period_end lp k) evs)). ring.
Qed.

Section T.
Context (expf : Q -> Q) (m : mode) (fit : list Q -> Q) (ds : list dimn) (mt : imethod) (W : wf_dims ds) (DO : discrete_ok mt ds) (g1 g2 : nat) (G2 : 1 <= g2).
Local Notation n := (g1 + g2).
Local Notation dim := (length ds).
Local Notation part_ok := (part_ok ds).
Definition full (p : part) : Prop := part_ok p /\ length (q_fri p) = dim.

Lemma ep_learn_total sw num d i : length sw = n -> Forall part_ok sw -> num <= n -> i < n -> unit_f d -> exists f, ep_learn expf ds g1 g2 sw num d i = Some f /\ length f = dim.
Proof.
  intros L F Hn Hi Hu. unfold ep_learn. cbv zeta.
  match goal with |- context [traverse ?f 0 ds] => destruct (traverse_total_len f ds 0) as (v & Ev) end.
  - intros j a Hj. simpl. destruct (Hu j) as (U1 & U2). assert (n1 : 1 <= n) by lia. pose proof (friend_lt g1 g2 num _ n1 Hn U1) as K1. pose proof (friend_lt g1 g2 num _ n1 Hn U2) as K2.
    destruct (nth_len sw (hc_friend g1 g2 num (fd_1 d j))) as (p1 & ->); [lia|]. cbn [bind].
    destruct (nth_len sw (hc_friend g1 g2 num (fd_2 d j))) as (p2 & ->); [lia|]. cbn [bind].
    match goal with |- context [nth_error sw ?k] => destruct (nth_len sw k) as (p & Ep) end.
    { destruct (_ && _); [lia|]. destruct (Qltb _ _); lia. }
    rewrite Ep. cbn [bind]. apply nth_len. rewrite Forall_forall in F. destruct (F p (nth_error_In _ _ Ep)) as (_ & P & _). rewrite (feasible_length _ _ P). auto.
  - rewrite Ev. exists v. split; auto. apply len_traverse in Ev. auto.
Qed.

Lemma ep_update_total num chk sw d i p : length sw = n -> Forall part_ok sw -> num <= n -> i < n -> unit_f d -> full p -> 
  exists p', ep_update expf ds g1 g2 num chk sw d i p = Some p' /\ full p'.
Proof.
  intros L F Hn Hi Hu (P1 & P2). unfold ep_update. destruct (negb chk || (5 <? q_sl p)).
  - destruct (ep_learn_total sw num d i) as (f & -> & Lf); auto. cbn [bind]. eexists. split; [reflexivity|]. split; auto.
  - exists p. split; [auto|split; auto].
Qed.
Lemma ep_update_first num sw d i p : length sw = n -> Forall part_ok sw -> num <= n -> i < n -> unit_f d -> part_ok p -> 
  exists p', ep_update expf ds g1 g2 num false sw d i p = Some p' /\ full p'.
Proof.
  intros L F Hn Hi Hu P1. unfold ep_update. cbn [negb orb].
  destruct (ep_learn_total sw num d i) as (f & -> & Lf); auto. cbn [bind]. eexists. split; [reflexivity|]. split; auto.
Qed.

Lemma ep_settle_total ngen k d p v : full p -> length v = dim -> exists p', ep_settle expf ds mt ngen k d p v = Some p' /\ full p'.
Proof.
  intros (P & Pf) L. pose proof P as (P1 & P2 & P3). unfold ep_settle.
  match goal with |- context [traverse ?f 0 ds] => destruct (traverse_total_len f ds 0) as (w & Ew) end.
  { intros j a Hj. simpl. destruct (nth_len v j) as (c & ->); [lia|]. cbn [bind]. eauto. }
  rewrite Ew. cbn [bind]. apply len_traverse in Ew.
  destruct (settle_total expf ds W (anneal1 k ngen) mt (ed_vd d) (map2 Qplus (q_x p) w)) as (x & -> & Fx); auto.
  { rewrite map2_len; [apply feasible_length; auto|rewrite (feasible_length _ _ P1); auto]. }
  cbn [bind]. eexists. split; [reflexivity|]. split; auto. split; auto.
Qed.

Ltac coord l j := destruct (nth_len l j) as (? & ->); [first [lia|rewrite (feasible_length ds) by auto; lia]|]; cbn [bind].

Lemma ep_move1_total ngen k sw d i p : length sw = n -> Forall part_ok sw -> i < n -> unit_f (ed_f d) -> full p ->
  exists p', ep_move1 expf ds mt g1 g2 ngen k sw d i p = Some p' /\ full p'.
Proof.
  intros L F Hi Hu P. unfold ep_move1. destruct (ep_update_total g1 true sw (ed_f d) i p) as (q & -> & ((Q1 & Q2 & Q3) & Q4)); auto; [lia|]. cbn [bind].
  match goal with |- context [traverse ?f 0 ds] => destruct (traverse_total_len f ds 0) as (w & Ew) end.
  { intros j a Hj. simpl. coord (q_x q) j. coord (q_v q) j. coord (q_fri q) j. eauto. }
  rewrite Ew. cbn [bind]. apply len_traverse in Ew. apply ep_settle_total; auto. split; auto. split; auto.
Qed.

Lemma near_total sw i p : 3 <= length sw -> exists a b c, ep_near sw i p = Some [a; b; c] /\ In a sw /\ In b sw /\ In c sw.
Proof.
  intros L. unfold ep_near. cbv zeta. set (dist := set_nth _ _ _). assert (Ld : length dist = length sw) by (unfold dist; rewrite set_len, map_length; auto).
  set (s := sort_asc snd (combine (seq 0 (length sw)) dist)). assert (Ls : length s = length sw) by (unfold s; rewrite sort_asc_length, combine_length, seq_length, Ld; lia).
  assert (Hs : Forall (fun e => fst e < length sw) s).
  { apply Forall_forall. intros [a b] Hin. unfold s in Hin. apply in_sort_asc in Hin. apply in_combine_l in Hin. apply in_seq in Hin. simpl. lia. }
  destruct s as [|a [|b [|c s]]]; try (simpl in Ls; lia). cbn [map firstn fst].
  inversion Hs as [|? ? A Hs1]; subst. inversion Hs1 as [|? ? B Hs2]; subst. inversion Hs2 as [|? ? C _]; subst. cbn [traverse].
  destruct (nth_len sw (fst a) A) as (pa & Ea). destruct (nth_len sw (fst b) B) as (pb & Eb). destruct (nth_len sw (fst c) C) as (pc & Ec).
  rewrite Ea, Eb, Ec. cbn [bind]. exists pa, pb, pc. split; auto. split; [|split]; eapply nth_error_In; eauto.
Qed.

Lemma ep_move2_total ngen k sw gt rk d i p : length sw = n -> Forall part_ok sw -> 3 <= n -> i < n -> unit_f (ed_f d) -> full p -> length gt = dim ->
  (exists s, ep_pick 0 rk (ed_prob d) = Some s) ->
  exists r, ep_move2 expf ds mt g1 g2 ngen k sw gt rk d i p = Some r /\ full (fst r).
Proof.
  intros L F n3 Hi Hu P Lg (s & Es). unfold ep_move2. rewrite Es. cbn [bind].
  assert (X : exists q v, match s with
     | 0 => let* v := ep_v0 ds ngen k gt d p in Some (p, v)
     | 1 => let* v := ep_v1 ds g2 ngen k sw gt d p in Some (p, v)
     | 2 => let* v := ep_v2 ds ngen k gt d p in Some (p, v)
     | 3 => let* v := ep_v3 ds sw d i p in Some (p, v)
     | _ => let* p := ep_update expf ds g1 g2 g1 true sw (ed_f d) i p in let* v := ep_v4 ds ngen k gt d p in Some (p, v)
     end = Some (q, v) /\ full q /\ length v = dim).
  { assert (T : forall f : nat -> dimn -> option Q, (forall j dm, j < dim -> exists c, f j dm = Some c) -> exists v, traverse f 0 ds = Some v /\ length v = dim).
    { intros f Hf. destruct (traverse_total_len f ds 0) as (w & Ew); [intros j a Hj; apply Hf; auto|]. exists w. split; auto. apply len_traverse in Ew. auto. }
    pose proof P as ((P1 & P2 & P3) & P4).
    assert (C : forall r j, In r sw -> j < dim -> exists c, nth_error (q_px r) j = Some c).
    { intros r j Hr Hj. rewrite Forall_forall in F. destruct (F r Hr) as (_ & R & _). apply nth_len. rewrite (feasible_length _ _ R). auto. }
    destruct s as [|[|[|[|s]]]].
    - destruct (T (fun j (_ : dimn) =>
    let* x := nth_error (q_x p) j in let* v := nth_error (q_v p) j in
    let* b := nth_error (q_px p) j in let* g := nth_error gt j in
    Some (hc_lin (9#10) (7#10) k ngen * v
          + (hc_lin (5#2) 2 k ngen * ed_r1 d j * (b - x) + hc_lin (1#2) (-2) k ngen * ed_r2 d j * (g - x)))%Q)) as (v & Ev & Lv).
      + intros j dm Hj. coord (q_x p) j. coord (q_v p) j. coord (q_px p) j. coord gt j. eauto.
      + unfold ep_v0. rewrite Ev. cbn [bind]. exists p, v. auto.
    - unfold ep_v1. match goal with |- context [traverse ?f 0 ds] => destruct (T f) as (v & Ev & Lv) end.
      + intros j dm Hj. coord (q_x p) j. coord (q_v p) j. destruct (nth_len (q_px p) j) as (b & ->); [rewrite (feasible_length ds) by auto; lia|]; cbn [bind]. coord gt j.
        match goal with |- context [traverse ?f 0 (firstn g2 sw)] => destruct (traverse_total_idx f (firstn g2 sw) 0) as (rs & Er) end.
        { intros a r _ Hr. destruct (C r j) as (c & ->); [eapply in_firstn; eauto|auto|]. cbn [bind]. eauto. }
        rewrite Er. cbn [bind]. apply len_traverse in Er. rewrite firstn_length in Er.
        destruct (argmax_Some rs) as (fid & fv & Ea). { intros ->. simpl in Er. lia. } rewrite Ea. cbn [bind].
        apply argmax_spec in Ea. destruct Ea as (Ea & _). assert (fid < length rs) by (apply nth_error_Some; congruence).
        destruct (nth_len sw fid) as (r & Hr); [lia|]. rewrite Hr. cbn [bind]. destruct (C r j (nth_error_In _ _ Hr) Hj) as (c & ->). cbn [bind]. eauto.
      + rewrite Ev. cbn [bind]. exists p, v. auto.
    - unfold ep_v2. match goal with |- context [traverse ?f 0 ds] => destruct (T f) as (v & Ev & Lv) end.
      + intros j dm Hj. coord (q_x p) j. coord (q_px p) j. coord gt j. cbv zeta. eauto.
      + rewrite Ev. cbn [bind]. exists p, v. auto.
    - unfold ep_v3. destruct (near_total sw i p) as (a & b & c & -> & Ia & Ib & Ic); [lia|]. cbn [bind].
      match goal with |- context [traverse ?f 0 ds] => destruct (T f) as (v & Ev & Lv) end.
      + intros j dm Hj. coord (q_x p) j. coord (q_v p) j. cbv zeta. cbn [traverse]. destruct (C a j Ia Hj) as (ca & ->). destruct (C b j Ib Hj) as (cb & ->). destruct (C c j Ic Hj) as (cc & ->). cbn [bind]. eauto.
      + rewrite Ev. cbn [bind]. exists p, v. auto.
    - destruct (ep_update_total g1 true sw (ed_f d) i p) as (q & -> & Q); auto; [lia|]. cbn [bind]. pose proof Q as ((Q1 & Q2 & Q3) & Q4).
      unfold ep_v4. match goal with |- context [traverse ?f 0 ds] => destruct (T f) as (v & Ev & Lv) end.
      + intros j dm Hj. coord (q_x q) j. coord (q_v q) j. coord (q_fri q) j. coord gt j. eauto.
      + rewrite Ev. cbn [bind]. exists q, v. auto. }
  destruct X as (q & v & X & Q & Lv). rewrite X. cbn [bind]. destruct (ep_settle_total ngen k d q v) as (p' & -> & P'); auto. cbn [bind]. eexists. split; [reflexivity|]. auto.
Qed.

Lemma usteps_full u l u' : usteps m fit ds u l u' -> Forall full (eu_sw u) -> Forall full (eu_sw u').
Proof.
  induction 1 as [|u i u1 l u2 H _ IH]; auto. intros F. apply IH. destruct H as (p & p' & Ep & B & Es & _). rewrite Es.
  assert (full p') as Fp. { rewrite Forall_forall in F. destruct (F p (nth_error_In _ _ Ep)) as ((P1 & P2 & P3) & P4). destruct B as (B1 & B2 & B3 & B4).
    split; [|congruence]. split; [congruence|]. split; [|congruence]. destruct B4 as [(_ & -> & _)|(_ & -> & _)]; auto. }
  clear - F Fp. revert i. induction F; intros [|i]; simpl; constructor; auto.
Qed.

Lemma loop1_total l : forall u, (forall i, In i l -> i < length (eu_sw u)) -> exists u', ep_loop1 m fit ds u l = Some u'.
Proof.
  induction l as [|i l IH]; intros u H; cbn [ep_loop1]; eauto.
  assert (exists u1, ep_upd1 m fit ds u i = Some u1) as (u1 & E).
  { unfold ep_upd1. destruct (nth_len (eu_sw u) i) as (p & ->); [apply H; left; auto|]. cbn [bind]. cbv zeta. destruct (Qltb _ _); destruct (Qltb _ _); eauto. }
  rewrite E. cbn [bind]. apply IH. intros j Hj. apply upd1_step in E. destruct E as ((p & p' & _ & _ & -> & _) & _). rewrite set_len. apply H. right. auto.
Qed.
Lemma loop2_total l : forall u, (forall i s, In (i, s) l -> i < length (eu_sw u)) -> exists u', ep_loop2 m fit ds u l = Some u'.
Proof.
  induction l as [|[i s] l IH]; intros u H; cbn [ep_loop2]; eauto.
  assert (exists u1, ep_upd2 m fit ds u i s = Some u1) as (u1 & E).
  { unfold ep_upd2. destruct (nth_len (eu_sw u) i) as (p & ->); [eapply H; left; auto|]. cbn [bind]. cbv zeta. destruct (Qltb _ _); destruct (Qltb _ _); eauto. }
  rewrite E. cbn [bind]. apply IH. intros j t Hj. pose proof (upd2_step _ _ _ _ _ _ _ E) as S. assert (L : length (eu_sw u1) = length (eu_sw u)).
  { destruct S as (p & p' & _ & _ & -> & _). apply set_len. } rewrite L. eapply H. right. eauto.
Qed.

Lemma pick_ok mm u : mem_ok mm -> (upto 5 (em_pk mm) == 1)%Q -> (0 <= u)%Q -> (u < 1)%Q -> exists s, ep_pick 0 (em_rk mm) u = Some s.
Proof.
  intros (M1 & M2 & _ & _ & M5) S H0 H1. pose proof (M5 0 ltac:(lia)) as E0. pose proof (M5 5 ltac:(lia)) as E5. rewrite S in E5.
  destruct (em_rk mm) as [|r0 rk] eqn:E; [discriminate|]. destruct (list5 rk) as (a & b & c & d & e & ->); [simpl in M2; lia|].
  apply pick_total; [|cbn [last]; cbn [nth] in E5; lra|simpl; lia]. cbn [hd]. cbn [nth upto] in E0. destruct (em_pk mm); simpl in E0; lra.
Qed.

Lemma fulls l : Forall full l -> Forall part_ok l.
Proof. intros H. eapply Forall_impl; [|exact H]. intros p (P & _). auto. Qed.

Lemma explore_total ngen k gt dr st : 3 <= n -> Forall full (ep_sw st) -> length (ep_sw st) = n -> length gt = dim ->
  (forall i, unit_f (ed_f (dr i)) /\ (0 <= ed_prob (dr i))%Q /\ (ed_prob (dr i) < 1)%Q) ->
  (2 <= k -> ep_mem st <> None) -> (forall m0, ep_mem st = Some m0 -> mem_ok m0 /\ (upto 5 (em_pk m0) == 1)%Q) ->
  exists mm fl u, ep_explore expf m fit ds mt g1 g2 ngen k gt dr st = Some (Some mm, fl, u) /\ Forall full (eu_sw u) /\ length (eu_sw u) = n.
Proof.
  intros n3 F L Lg D M1 M2. unfold ep_explore.
  match goal with |- context [traverse ?f 0 (ep_sw st)] => destruct (traverse_total_P f full (ep_sw st) 0) as (sw1 & E1 & F1) end.
  { intros i p Hi Hp. rewrite Forall_forall in F. destruct (i <? g1); [|eauto]. apply ep_move1_total; auto; [apply fulls, Forall_forall; auto|lia|apply D]. }
  rewrite E1. cbn [bind]. apply len_traverse in E1.
  destruct (loop1_total (seq 0 g1) (EUst sw1 (ep_ref st) (ep_gv st) [] [] [])) as (u1 & Eu1). { intros i Hi. apply in_seq in Hi. cbn [eu_sw]. lia. }
  rewrite Eu1. cbn [bind]. apply loop1_steps in Eu1. pose proof (usteps_full _ _ _ Eu1 F1) as F2. apply usteps_x in Eu1. apply (f_equal (@length _)) in Eu1. cbn [eu_sw] in Eu1. rewrite !map_length in Eu1.
  replace (g2 =? 0) with false by (symmetry; apply Nat.eqb_neq; lia).
  assert (exists mm fl, ep_refresh k (ep_flag st) (ep_mem st) = Some (mm, fl)) as (mm & fl & Er).
  { unfold ep_refresh. destruct (k <=? 1) eqn:Ek; [eauto|]. apply Nat.leb_gt in Ek. destruct (ep_mem st); [|exfalso; apply M1; auto]. cbn [bind]. destruct (ep_flag st); eauto. }
  rewrite Er. cbn [bind]. pose proof (refresh_sum _ _ _ _ _ Er M2) as S1. assert (MO : mem_ok mm) by (eapply refresh_ok; [exact G2|exact Er|intros; apply M2; auto]).
  match goal with |- context [traverse ?f 0 (eu_sw u1)] => destruct (traverse_total_P f (fun r => full (fst r)) (eu_sw u1) 0) as (mv & Em & Fm) end.
  { intros i p Hi Hp. pose proof F2 as F3. rewrite Forall_forall in F2. destruct (i <? g1); [exists (p, 0); auto|]. apply ep_move2_total; auto; [lia|apply fulls; auto|lia|apply D|]. apply pick_ok; auto; apply D. }
  rewrite Em. cbn [bind]. apply len_traverse in Em.
  match goal with |- context [ep_loop2 _ _ _ ?u ?l] => destruct (loop2_total l u) as (u2 & Eu2) end.
  { intros i s Hi. cbn [eu_sw]. assert (Hi2 : In (i, s) (combine (seq 0 n) (map snd mv))) by (rewrite <- (firstn_skipn g1); apply in_or_app; right; exact Hi). apply in_combine_l, in_seq in Hi2. rewrite map_length. lia. }
  rewrite Eu2. cbn [bind]. do 3 eexists. split; [reflexivity|]. apply loop2_steps in Eu2. split.
  - eapply usteps_full; [exact Eu2|]. cbn [eu_sw]. clear - Fm. induction Fm; simpl; auto.
  - apply usteps_x in Eu2. apply (f_equal (@length _)) in Eu2. cbn [eu_sw] in Eu2. rewrite !map_length in Eu2. lia.
Qed.

Lemma exploit_total ngen k gt dr st : 3 <= n -> Forall full (ep_sw st) -> length (ep_sw st) = n -> length gt = dim ->
  (forall i, unit_f (ed_f (dr i)) /\ (0 <= ed_prob (dr i))%Q /\ (ed_prob (dr i) < 1)%Q) ->
  (2 <= k -> ep_mem st <> None) -> (forall m0, ep_mem st = Some m0 -> mem_ok m0 /\ (upto 5 (em_pk m0) == 1)%Q) ->
  exists mm fl u, ep_exploit expf m fit ds mt g1 g2 ngen k gt dr st = Some (Some mm, fl, u) /\ Forall full (eu_sw u) /\ length (eu_sw u) = n.
Proof.
  intros n3 F L Lg D M1 M2. unfold ep_exploit.
  assert (exists mm fl, ep_refresh k (ep_flag st) (ep_mem st) = Some (mm, fl)) as (mm & fl & Er).
  { unfold ep_refresh. destruct (k <=? 1) eqn:Ek; [eauto|]. apply Nat.leb_gt in Ek. destruct (ep_mem st); [|exfalso; apply M1; auto]. cbn [bind]. destruct (ep_flag st); eauto. }
  rewrite Er. cbn [bind]. pose proof (refresh_sum _ _ _ _ _ Er M2) as S1. assert (MO : mem_ok mm) by (eapply refresh_ok; [exact G2|exact Er|intros; apply M2; auto]).
  match goal with |- context [traverse ?f 0 (ep_sw st)] => destruct (traverse_total_P f (fun r => full (fst r)) (ep_sw st) 0) as (mv & Em & Fm) end.
  { intros i p Hi Hp. pose proof F as F3. rewrite Forall_forall in F. apply ep_move2_total; auto; [apply fulls; auto|lia|apply D|]. apply pick_ok; auto; apply D. }
  rewrite Em. cbn [bind]. apply len_traverse in Em.
  match goal with |- context [ep_loop2 _ _ _ ?u ?l] => destruct (loop2_total l u) as (u2 & Eu2) end.
  { intros i s Hi. cbn [eu_sw]. apply in_combine_l, in_seq in Hi. rewrite map_length. lia. }
  rewrite Eu2. cbn [bind]. do 3 eexists. split; [reflexivity|]. apply loop2_steps in Eu2. split.
  - eapply usteps_full; [exact Eu2|]. cbn [eu_sw]. clear - Fm. induction Fm; simpl; auto.
  - apply usteps_x in Eu2. apply (f_equal (@length _)) in Eu2. cbn [eu_sw] in Eu2. rewrite !map_length in Eu2. lia.
Qed.

Lemma er_start par lp ngen drs x0 di s0 : (forall l, x0 = Some l -> Forall (fun x => length x = dim) l) ->
  ep_start expf m fit ds mt g1 g2 par x0 di = Some s0 -> er_inv m fit g1 g2 par lp ngen drs 0 s0.
Proof.
  intros Hx E0. destruct (start_ok expf m fit ds mt W DO g1 g2 par x0 di s0 ltac:(lia) Hx E0) as (_ & _ & A & B & C & D & E & _).
  unfold er_inv. rewrite A, B, C, D, E. do 2 (split; [auto|]). split; [destruct par; lia|]. split; [auto|]. split; [lia|]. split; intros [|j]; simpl; discriminate.
Qed.

Lemma run_inv par lp ngen drs x0 di s0 k st : (forall l, x0 = Some l -> Forall (fun x => length x = dim) l) ->
  ep_start expf m fit ds mt g1 g2 par x0 di = Some s0 -> gens (ep_gen expf m fit ds mt g1 g2 par lp ngen drs) 0 k s0 = Some st ->
  ep_inv m fit ds g1 g2 (vel_unit di) k st /\ er_inv m fit g1 g2 par lp ngen drs k st.
Proof.
  intros Hx E0 Eg. assert (n1 : 1 <= n) by lia. destruct (start_ok expf m fit ds mt W DO g1 g2 par x0 di s0 n1 Hx E0) as (I0 & _).
  apply (gens_nat _ (fun k s => ep_inv m fit ds g1 g2 (vel_unit di) k s /\ er_inv m fit g1 g2 par lp ngen drs k s)) in Eg; auto.
  - intros j s s' (A & B) H. split; [eapply ep_step; eauto|eapply er_step; eauto].
  - split; auto. eapply er_start; eauto.
Qed.

Lemma start_total par x0 di : 3 <= n -> (forall l, x0 = Some l -> l <> [] -> length l = n) ->
  (forall l, x0 = Some l -> Forall (fun x => length x = dim) l) -> (forall i, unit_f (ei_f (di i))) ->
  exists s0, ep_start expf m fit ds mt g1 g2 par x0 di = Some s0 /\ Forall full (ep_sw s0).
Proof.
  intros n3 Hl Hx Hu. unfold ep_start. fold (start_pos ds g1 g2 x0 di).
  assert (exists pos, start_pos ds g1 g2 x0 di = Some pos) as (pos & Ep).
  { unfold start_pos. destruct x0 as [[|a l]|]; eauto. rewrite (Hl _ eq_refl), Nat.eqb_refl by discriminate. eauto. }
  rewrite Ep. cbn [bind]. destruct (start_pos_ok _ _ _ _ _ _ Hx Ep) as (Lp & Fp).
  match goal with |- context [traverse ?f 0 pos] => destruct (traverse_total_P f part_ok pos 0) as (sw0 & E0 & F0) end.
  { intros i x _ Hin. rewrite Forall_forall in Fp.
    assert (X : exists b, start_row expf m fit ds mt di i x = Some b).
    { unfold start_row. match goal with |- context [traverse ?f 0 ds] => destruct (traverse_total_len f ds 0) as (v & ->) end; [eauto|]. cbn [bind].
      destruct (settle_total expf ds W 1 mt (ei_vd (di i)) x) as (y & -> & _); auto. cbn [bind]. eauto. }
    destruct X as (b & Eb). exists b. split; auto. eapply start_row_ok; eauto. }
  rewrite E0. cbn [bind]. cbv zeta. apply len_traverse in E0.
  destruct (argmin_Some (map (pt_score m fit ds) (map q_x sw0))) as (ix & v & Ea). { intros Z. apply map_eq_nil, map_eq_nil in Z. subst. simpl in E0. lia. }
  rewrite Ea. cbn [bind]. destruct (argmin_spec _ _ _ Ea) as (Hz & _). rewrite nth_error_map in Hz.
  destruct (nth_error (map q_x sw0) ix) as [gx|] eqn:Eg; [|discriminate]. cbn [bind].
  replace (n =? 1) with false by (symmetry; apply Nat.eqb_neq; lia).
  match goal with |- context [traverse ?f 0 sw0] => destruct (traverse_total_P f full sw0 0) as (sw & E2 & F2) end.
  { intros i p Hi Hp. rewrite Forall_forall in F0. apply ep_update_first; auto; [lia|apply Forall_forall; auto|destruct (i <? g1); lia|lia]. }
  rewrite E2. cbn [bind]. eauto.
Qed.

Lemma ep_total par lp ngen x0 di drs : 3 <= n -> ngen <> 0 -> lp <> 0 -> (forall l, x0 = Some l -> l <> [] -> length l = n) ->
  (forall l, x0 = Some l -> Forall (fun x => length x = dim) l) -> (forall i, unit_f (ei_f (di i))) ->
  (forall k i, unit_f (ed_f (drs k i)) /\ (0 <= ed_prob (drs k i))%Q /\ (ed_prob (drs k i) < 1)%Q) ->
  exists r, ep_evolute expf m fit ds mt g1 g2 par lp ngen x0 di drs = Some r.
Proof.
  intros n3 Hn Hlp Hl Hx Hu Hd. unfold ep_evolute. destruct (start_total par x0 di n3 Hl Hx Hu) as (s0 & E0 & F0). rewrite E0. cbn [bind].
  assert (n1 : 1 <= n) by lia. destruct (start_ok expf m fit ds mt W DO g1 g2 par x0 di s0 n1 Hx E0) as (I0 & _).
  destruct (gens_nat_total (ep_gen expf m fit ds mt g1 g2 par lp ngen drs) (fun k s => (ep_inv m fit ds g1 g2 (vel_unit di) k s /\ er_inv m fit g1 g2 par lp ngen drs k s) /\ Forall full (ep_sw s)) ngen 0 s0)
    as (st & -> & ((I & _) & _)); auto.
  - intros k s Hk ((I & R) & F). assert (X : exists s', ep_gen expf m fit ds mt g1 g2 par lp ngen drs k s = Some s' /\ Forall full (ep_sw s')).
    { pose proof I as (A & B & C & D & E & AL & (gx & G1 & GM & G3) & _). unfold ep_gen. rewrite G1. cbn [bind]. cbv zeta.
      assert (Lg : length gx = dim). { apply feasible_length. destruct GM as (GM & _). rewrite Forall_forall in C. auto. }
      destruct R as (R1 & R2 & R3 & R4 & R5 & R6 & R7).
      assert (M1 : 2 <= k -> ep_mem s <> None). { intros K. destruct (R5 ltac:(lia)) as (_ & mm & -> & _). discriminate. }
      assert (M2 : forall m0, ep_mem s = Some m0 -> mem_ok m0 /\ (upto 5 (em_pk m0) == 1)%Q).
      { intros m0 Em. destruct (Nat.eq_dec k 0) as [->|K0]; [destruct (R4 eq_refl); congruence|]. destruct (R5 K0) as (_ & mm & Emm & MO & _ & RT).
        rewrite Em in Emm. inversion Emm; subst mm. split; auto. eapply row_sum, R6; eauto. }
      assert (PH : exists mm fl u, (if Qle_bool (qnat (ep_fc s)) ((9#10) * qnat (ngen * n + n)) then ep_explore expf m fit ds mt g1 g2 ngen k gx (drs k) s else ep_exploit expf m fit ds mt g1 g2 ngen k gx (drs k) s) = Some (Some mm, fl, u) /\ Forall full (eu_sw u) /\ length (eu_sw u) = n).
      { destruct (Qle_bool _ _); [apply explore_total; auto|apply exploit_total; auto]. }
      assert (PO : forall mm fl u, (if Qle_bool (qnat (ep_fc s)) ((9#10) * qnat (ngen * n + n)) then ep_explore expf m fit ds mt g1 g2 ngen k gx (drs k) s else ep_exploit expf m fit ds mt g1 g2 ngen k gx (drs k) s) = Some (mm, fl, u) -> exists gx', ep_gx (eu_sw u) (eu_ref u) = Some gx').
      { intros mm fl u Hu0. assert (PK : phase_ok m fit ds (ep_sw s) (ep_gv s) gx u).
        { destruct (Qle_bool _ _); [eapply explore_ok; eauto|eapply exploit_ok; eauto]. }
        destruct PK as (_ & _ & _ & gx' & K & _). eauto. }
      destruct PH as (mm & fl & u & Ep & Fu & Lu). rewrite Ep. cbn [bind]. destruct (PO _ _ _ Ep) as (gx' & Eg'). rewrite Eg'.
      replace (lp =? 0) with false by (symmetry; apply Nat.eqb_neq; auto). cbn [bind].
      destruct (argmin_Some (map (pt_score m fit ds) (map q_x (eu_sw u)))) as (ix & v & ->). { intros Z. apply map_eq_nil, map_eq_nil in Z. rewrite Z in Lu. simpl in Lu. lia. }
      cbn [bind]. eexists. split; [reflexivity|]. cbn [ep_sw]. auto. }
    destruct X as (s' & Es & Fs). exists s'. split; auto. split; auto. split; [eapply ep_step; eauto|eapply er_step; eauto].
  - split; auto. split; auto. eapply er_start; eauto.
  - cbn [bind plus] in *. destruct I as (_ & _ & _ & _ & _ & _ & (gx & _ & _ & G3) & _). rewrite (G3 Hn). cbn [bind]. eauto.
Qed.

(** What a finished run recorded. *)
Lemma ep_rates_ok par lp ngen x0 di drs r : (forall l, x0 = Some l -> Forall (fun x => length x = dim) l) ->
  ep_evolute expf m fit ds mt g1 g2 par lp ngen x0 di drs = Some r ->
  length (epr_rates r) = ngen /\ length (epr_evs r) = ngen /\
  forall k row evs, nth_error (epr_rates r) k = Some row -> nth_error (epr_evs r) k = Some evs ->
  (length row = 5 /\
   (forall s, s < 5 -> (nth s row 0 == if 2 <=? period_end lp k then share s (during (max 1 (period_end lp k - lp)) (period_end lp k) (epr_evs r)) else (1#5))%Q) /\
   (forall s, s < 5 -> (1#505 <= nth s row 0)%Q) /\ (upto 5 row == 1)%Q) /\
  (map (fun e => fst (fst e)) evs = (if par || (10 * (k + 1) <=? 9 * (ngen + 1)) then seq g1 g2 else seq 0 n)) /\
  forall i s b, In (i, s, b) evs -> s < 5 /\ (upto s row <= ed_prob (drs k i))%Q /\ (ed_prob (drs k i) < upto (S s) row)%Q /\
     (b = true <-> improves m fit n (epr_log r) k i).
Proof.
  intros Hx H. unfold ep_evolute in H. apply bind_Some in H. destruct H as (s0 & E0 & H). apply bind_Some in H. destruct H as (st & Eg & H).
  apply bind_Some in H. destruct H as ([x f] & Eb & H). inversion H; subst r; clear H. cbn [epr_rates epr_evs epr_log].
  destruct (run_inv _ _ _ _ _ _ _ _ _ Hx E0 Eg) as (_ & (A & B & _ & _ & _ & F & G)). do 2 (split; [auto|]).
  intros k row evs Hr He. destruct (G k row evs Hr He) as (G3 & G4). split; [|split; auto].
  pose proof (F k row Hr) as RS. pose proof (row_sum _ _ _ _ RS) as SU. destruct RS as (R1 & R2). do 2 (split; [auto|]). split; auto.
  intros s Hs. rewrite (R2 s Hs). destruct (2 <=? period_end lp k); [apply share_pos; auto|lra].
Qed.

Lemma ep_cores lp ngen x0 di drs r : (forall l, x0 = Some l -> Forall (fun x => length x = dim) l) ->
  ep_evolute expf m fit ds mt g1 g2 true lp ngen x0 di drs = Some r ->
  forall k evs, nth_error (epr_evs r) k = Some evs -> map (fun e => fst (fst e)) evs = seq g1 g2.
Proof.
  intros Hx H k evs He. destruct (ep_rates_ok _ _ _ _ _ _ _ Hx H) as (A & B & C).
  destruct (nth_len (epr_rates r) k) as (row & Hr). { assert (k < length (epr_evs r)) by (apply nth_error_Some; congruence). lia. }
  apply (C k row evs Hr He).
Qed.

Lemma slope_grows u i s u' : ep_upd2 m fit ds u i s = Some u' -> exists p p', nth_error (eu_sw u) i = Some p /\ nth_error (eu_sw u') i = Some p' /\ q_sl p' = S (q_sl p).
Proof.
  intros H. unfold ep_upd2 in H. apply bind_Some in H. destruct H as (p & Ep & H). cbv zeta in H. exists p.
  destruct (Qltb (pt_score m fit ds (q_x p)) (q_pv p)) eqn:E; cbn [fst snd] in H; destruct (Qltb _ (eu_gv u)); inversion H; subst u'; cbn [eu_sw]; eexists; (split; [auto|]); (split; [apply nth_set_eq, nth_error_Some; congruence|]); cbn [q_sl].
  all: try (replace (Qltb (pt_score m fit ds (q_x p)) (pt_score m fit ds (q_x p))) with false by (symmetry; apply not_true_is_false; intros Z; apply Qltb_lt in Z; lra)); rewrite ?E, ?andb_false_r; auto.
Qed.
End T.

(** With one group only the probabilities are never set, and the first generation raises. *)
Lemma one_group expf m fit ds mt g1 par lp ngen x0 di drs : ngen <> 0 -> ep_evolute expf m fit ds mt g1 0 par lp ngen x0 di drs = None.
Proof.
  intros Hn. unfold ep_evolute. destruct (ep_start expf m fit ds mt g1 0 par x0 di) as [s0|] eqn:E0; auto. cbn [bind].
  destruct ngen as [|ngen]; [congruence|]. cbn [gens].
  assert (FM : ep_mem s0 = None /\ ep_fc s0 = (if par then 0 else g1 + 0)).
  { unfold ep_start in E0. apply bind_Some in E0. destruct E0 as (pos & _ & E0). apply bind_Some in E0. destruct E0 as (sw0 & _ & E0). cbv zeta in E0.
    apply bind_Some in E0. destruct E0 as ([ix gv] & _ & E0). apply bind_Some in E0. destruct E0 as (gx & _ & E0). destruct (g1 + 0 =? 1); [discriminate|].
    apply bind_Some in E0. destruct E0 as (sw & _ & E0). inversion E0; subst. auto. }
  destruct FM as (M & C). assert (X : ep_gen expf m fit ds mt g1 0 par lp (S ngen) drs 0 s0 = None); [|rewrite X; auto].
  unfold ep_gen. destruct (ep_gx (ep_sw s0) (ep_ref s0)) as [gt|]; auto. cbn [bind]. cbv zeta.
  replace (Qle_bool _ _) with true.
  2:{ symmetry. apply Qle_bool_iff. rewrite C. unfold qnat.
      assert (Y : (inject_Z (10 * Z.of_nat (if par then 0 else g1 + 0)) <= inject_Z (9 * Z.of_nat (S ngen * (g1 + 0) + (g1 + 0))))%Q) by (rewrite <- Zle_Qle; destruct par; nia).
      rewrite !inject_Z_mult in Y. change (inject_Z 10) with 10%Q in Y. change (inject_Z 9) with 9%Q in Y. lra. }
  unfold ep_explore. destruct (traverse _ 0 (ep_sw s0)) as [sw1|]; auto. cbn [bind]. destruct (ep_loop1 _ _ _ _ _) as [u1|]; auto. cbn [bind Nat.eqb]. rewrite M. destruct (lp =? 0); auto.
Qed.

Lemma ep_pc_spec expf g1 g2 : 2 <= g1 + g2 -> (forall a b, (a < b)%Q -> (expf a < expf b)%Q) -> (forall a b, (a == b)%Q -> (expf a == expf b)%Q) ->
  (ep_pc expf g1 g2 0 == 0)%Q /\ (ep_pc expf g1 g2 (g1 + g2 - 1) == 1#2)%Q /\
  forall i j, i <= j -> (ep_pc expf g1 g2 i <= ep_pc expf g1 g2 j)%Q.
Proof.
  intros n2 Hm He. set (n := g1 + g2) in *.
  assert (P : (0 < qnat (n - 1))%Q) by (unfold qnat; change 0%Q with (inject_Z 0); rewrite <- Zlt_Qlt; lia).
  assert (D : (0 < expf (1 * 10) - expf 0)%Q) by (assert (expf 0 < expf (1 * 10))%Q by (apply Hm; reflexivity); lra).
  unfold ep_pc. fold n. split; [|split].
  - assert (E : (expf (qnat 0 / qnat (n - 1) * 10) == expf 0)%Q) by (apply He; unfold qnat at 1; simpl; field; lra). rewrite E. field. lra.
  - assert (E : (expf (qnat (n - 1) / qnat (n - 1) * 10) == expf (1 * 10))%Q) by (apply He; field; lra). rewrite E. field. lra.
  - intros i j Hij.
    assert (E : (expf (qnat i / qnat (n - 1) * 10) <= expf (qnat j / qnat (n - 1) * 10))%Q).
    { assert (L : (qnat i <= qnat j)%Q) by (unfold qnat; rewrite <- Zle_Qle; lia).
      assert (L2 : (qnat i / qnat (n - 1) * 10 <= qnat j / qnat (n - 1) * 10)%Q).
      { apply Qmult_le_compat_r; [|discriminate]. unfold Qdiv. apply Qmult_le_compat_r; auto. apply Qlt_le_weak, Qinv_lt_0_compat; auto. }
      apply Qle_lteq in L2. destruct L2 as [L2|L2]; [apply Qlt_le_weak; auto|rewrite (He _ _ L2); lra]. }
    revert E. generalize (expf (qnat i / qnat (n - 1) * 10)%Q) (expf (qnat j / qnat (n - 1) * 10)%Q). intros a b E.
    apply Qplus_le_compat; [apply Qle_refl|]. unfold Qdiv. apply Qmult_le_compat_r; [|apply Qlt_le_weak, Qinv_lt_0_compat; auto].
    rewrite !(Qmult_comm (1#2)). apply Qmult_le_compat_r; [|discriminate]. apply Qplus_le_compat; [auto|apply Qle_refl].
Qed.
