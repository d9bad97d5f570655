(** Proofs about EPSO: what a run reports. *)
From Coq Require Import List Arith ZArith QArith Qround Bool Lia Lqa.
From Verif Require Import Base BaseFacts Space_Model Space_Spec Space_Facts Opt_Model Opt_Spec Opt_Facts Opt_Facts2
  Pop_Model Pop_Spec Pop_Proofs Swarm_Model Swarm_Proofs HHO_Proofs HCLPSO_Model HCLPSO_Spec HCLPSO_Proofs EPSO_Model EPSO_Spec.
Import ListNotations.
Open Scope nat_scope.

Lemma ep_clamp_slow d v : (d_lo d <= d_hi d)%Q -> (- ep_vmax d <= ep_clamp d v)%Q /\ (ep_clamp d v <= ep_vmax d)%Q.
Proof.
  intros H. unfold ep_clamp. assert (0 <= ep_vmax d)%Q by (unfold ep_vmax; lra).
  destruct (Qltb v (- ep_vmax d)) eqn:E1, (Qltb (ep_vmax d) v) eqn:E2, (Qltb v (ep_vmax d)) eqn:E3, (Qltb (- ep_vmax d) v) eqn:E4;
    cbn [andb]; qprop; split; lra.
Qed.

Lemma nth_set_eq {A} (l : list A) i x : i < length l -> nth_error (set_nth l i x) i = Some x.
Proof. revert i. induction l as [|a l IH]; intros [|i] H; simpl in *; try lia; auto. apply IH. lia. Qed.
Lemma nth_set_neq {A} (l : list A) i j x : i <> j -> nth_error (set_nth l i x) j = nth_error l j.
Proof. revert i j. induction l as [|a l IH]; intros [|i] [|j] H; simpl in *; try lia; auto. Qed.
Lemma set_len {A} (l : list A) i x : length (set_nth l i x) = length l.
Proof. revert i. induction l as [|a l IH]; intros [|i]; simpl; auto. Qed.

Section P.
Context (expf : Q -> Q) (m : mode) (fit : list Q -> Q) (ds : list dimn) (mt : imethod).
Context (W : wf_dims ds) (DO : discrete_ok mt ds) (g1 g2 : nat).
Local Notation n := (g1 + g2).
Local Notation g := (fun x => as_min m (fit x)).
Local Notation dim := (length ds).
Local Notation part_ok := (part_ok ds).
Local Notation score := (pt_score m fit ds).

(** The effect of one evaluation on a row. *)
Definition best_row (p p' : part) : Prop :=
  q_x p' = q_x p /\ q_v p' = q_v p /\ q_fri p' = q_fri p /\
  ((score (q_x p) < q_pv p)%Q /\ q_px p' = q_x p /\ q_pv p' = score (q_x p) \/
   ~ (score (q_x p) < q_pv p)%Q /\ q_px p' = q_px p /\ q_pv p' = q_pv p).

Definition ustep (u : eust) (i : nat) (u' : eust) : Prop :=
  exists p p', nth_error (eu_sw u) i = Some p /\ best_row p p' /\ eu_sw u' = set_nth (eu_sw u) i p' /\
  ((q_pv p' < eu_gv u)%Q /\ (eu_ref u' = Gown (q_px p') \/ eu_ref u' = Grow i) /\ eu_gv u' = q_pv p' \/
   ~ (q_pv p' < eu_gv u)%Q /\ eu_ref u' = eu_ref u /\ eu_gv u' = eu_gv u).

Lemma upd1_step u i u' : ep_upd1 m fit ds u i = Some u' -> ustep u i u' /\ eu_succ u' = eu_succ u /\ eu_fail u' = eu_fail u /\ eu_ev u' = eu_ev u.
Proof.
  unfold ep_upd1. intros H. apply bind_Some in H. destruct H as (p & Ep & H). cbv zeta in H.
  set (p' := if Qltb (score (q_x p)) (q_pv p) then _ else _) in H.
  assert (B : best_row p p').
  { unfold p', best_row. destruct (Qltb (score (q_x p)) (q_pv p)) eqn:E; qprop; cbn [q_x q_v q_px q_pv q_fri].
    - do 3 (split; [auto|]). left. auto.
    - do 3 (split; [auto|]). right. split; auto. lra. }
  destruct (Qltb (q_pv p') (eu_gv u)) eqn:E; inversion H; subst u'; cbn; qprop; (split; [|auto]); exists p, p'; cbn.
  - do 3 (split; [auto|]). left. auto.
  - do 3 (split; [auto|]). right. split; auto. lra.
Qed.

Lemma upd2_step u i s u' : ep_upd2 m fit ds u i s = Some u' -> ustep u i u'.
Proof.
  unfold ep_upd2. intros H. apply bind_Some in H. destruct H as (p & Ep & H). cbv zeta in H.
  destruct (Qltb (score (q_x p)) (q_pv p)) eqn:E; qprop.
  - set (sl := if (s =? 4) && Qltb (score (q_x p)) (score (q_x p)) then 0 else S (q_sl p)) in H.
    set (p' := Part (q_x p) (q_v p) (q_x p) (score (q_x p)) sl (q_fri p)) in H.
    exists p, p'. destruct (Qltb (score (q_x p)) (eu_gv u)) eqn:E2; inversion H; subst u'; cbn; qprop; unfold best_row; cbn.
    + split; auto. split; [do 3 (split; [auto|]); left; auto|]. split; auto.
    + split; auto. split; [do 3 (split; [auto|]); left; auto|]. split; auto. right. split; auto. lra.
  - set (sl := if (s =? 4) && Qltb (score (q_x p)) (q_pv p) then 0 else S (q_sl p)) in H.
    set (p' := Part (q_x p) (q_v p) (q_px p) (q_pv p) sl (q_fri p)) in H.
    exists p, p'. destruct (Qltb (q_pv p) (eu_gv u)) eqn:E2; inversion H; subst u'; cbn; qprop; unfold best_row; cbn.
    + split; auto. split; [do 3 (split; [auto|]); right; split; auto; lra|]. split; auto.
    + split; auto. split; [do 3 (split; [auto|]); right; split; auto; lra|]. split; auto. right. split; auto. lra.
Qed.

Inductive usteps : eust -> list nat -> eust -> Prop :=
| us_nil u : usteps u [] u
| us_cons u i u1 l u2 : ustep u i u1 -> usteps u1 l u2 -> usteps u (i :: l) u2.

Lemma loop1_steps l : forall u u', ep_loop1 m fit ds u l = Some u' -> usteps u l u'.
Proof.
  induction l as [|i l IH]; simpl; intros u u' H; [inversion H; constructor|].
  apply bind_Some in H. destruct H as (u1 & E & H). apply upd1_step in E. econstructor; [apply E|eauto].
Qed.
Lemma loop2_steps l : forall u u', ep_loop2 m fit ds u l = Some u' -> usteps u (map fst l) u'.
Proof.
  induction l as [|[i s] l IH]; simpl; intros u u' H; [inversion H; constructor|].
  apply bind_Some in H. destruct H as (u1 & E & H). apply upd2_step in E. econstructor; eauto.
Qed.

Definition alias_ok (sw : list part) (r : gref) (gv : Q) : Prop :=
  match r with Grow i => exists p, nth_error sw i = Some p /\ q_pv p = gv | Gown _ => True end.

Lemma usteps_ok u l u' : usteps u l u' -> NoDup l -> alias_ok (eu_sw u) (eu_ref u) (eu_gv u) ->
  forall gx, ep_gx (eu_sw u) (eu_ref u) = Some gx ->
  alias_ok (eu_sw u') (eu_ref u') (eu_gv u') /\ length (eu_sw u') = length (eu_sw u) /\
  (forall i p', nth_error (eu_sw u') i = Some p' -> exists p, nth_error (eu_sw u) i = Some p /\ (In i l -> best_row p p') /\ (~ In i l -> p' = p)) /\
  exists gx', ep_gx (eu_sw u') (eu_ref u') = Some gx' /\
   ((gx' = gx /\ eu_gv u' = eu_gv u) \/ exists i p', In i l /\ nth_error (eu_sw u') i = Some p' /\ q_px p' = gx' /\ q_pv p' = eu_gv u') /\
   (eu_gv u' <= eu_gv u)%Q /\ (forall i p', In i l -> nth_error (eu_sw u') i = Some p' -> (eu_gv u' <= q_pv p')%Q).
Proof.
  induction 1 as [u|u i u1 l u2 Hs Hr IH]; intros ND AL gx G.
  - split; auto. split; auto. split; [intros i p' H; exists p'; simpl; tauto|]. exists gx. split; auto. split; auto. split; [lra|]. simpl; tauto.
  - inversion ND as [|? ? Ni ND']; subst. destruct Hs as (p & p' & Ep & B & Es & Hg).
    assert (Li : i < length (eu_sw u)) by (apply nth_error_Some; congruence).
    assert (Ni1 : nth_error (eu_sw u1) i = Some p') by (rewrite Es; apply nth_set_eq; auto).
    assert (K : alias_ok (eu_sw u1) (eu_ref u1) (eu_gv u1) /\ exists gx1, ep_gx (eu_sw u1) (eu_ref u1) = Some gx1 /\
       ((gx1 = gx /\ eu_gv u1 = eu_gv u) \/ (q_px p' = gx1 /\ q_pv p' = eu_gv u1)) /\ (eu_gv u1 <= eu_gv u)%Q /\ (eu_gv u1 <= q_pv p')%Q).
    { destruct Hg as [(H1 & [H2|H2] & H3)|(H1 & H2 & H3)].
      - rewrite H2, H3. split; [exact I|]. exists (q_px p'). simpl. split; auto. split; auto. split; lra.
      - rewrite H2, H3. split; [exists p'; auto|]. exists (q_px p'). simpl. rewrite Ni1. simpl. split; auto. split; auto. split; lra.
      - rewrite H2, H3. destruct (eu_ref u) as [x|r] eqn:Er.
        + split; [exact I|]. exists gx. split; [exact G|]. split; auto. split; lra.
        + destruct AL as (pr & Epr & Hpr). destruct (Nat.eq_dec i r) as [->|Hne].
          * rewrite Ep in Epr. inversion Epr; subst pr. destruct B as (_ & _ & _ & [(B1 & B2 & B3)|(B1 & B2 & B3)]).
            -- exfalso. apply H1. rewrite B3, <- Hpr. auto.
            -- split; [exists p'; split; auto; congruence|]. exists gx. split; [|split; [auto|split; lra]].
               cbn [ep_gx] in G |- *. rewrite Ni1. rewrite Ep in G. cbn [bind] in *. congruence.
          * split; [exists pr; split; auto; rewrite Es, nth_set_neq; auto|]. exists gx. split; [|split; [auto|split; lra]].
            cbn [ep_gx] in G |- *. rewrite Es, nth_set_neq; auto. }
    destruct K as (AL1 & gx1 & G1 & C1 & C2 & C3). destruct (IH ND' AL1 gx1 G1) as (A & L & R & gx' & G' & D1 & D2 & D3).
    split; auto. split; [rewrite L, Es, set_len; auto|]. split.
    { intros j q Hq. destruct (R j q Hq) as (q1 & E1 & R1 & R2). destruct (Nat.eq_dec i j) as [<-|Hne].
      - exists p. split; auto. rewrite Ni1 in E1. inversion E1; subst q1. rewrite (R2 Ni). split; [auto|]. intros X. exfalso. apply X. left; auto.
      - exists q1. rewrite Es, nth_set_neq in E1 by auto. split; auto. split; intros X; [apply R1; destruct X; [tauto|auto]|apply R2; intros Y; apply X; right; auto]. }
    exists gx'. split; auto. split; [|split; [lra|]].
    + destruct D1 as [(-> & E)|(j & q & Hj & Hq & X & Y)]; [|right; exists j, q; simpl; auto].
      destruct C1 as [(-> & E1)|(E1 & E2)]; [left; split; congruence|]. right.
      assert (exists q, nth_error (eu_sw u2) i = Some q) as (q & Eq). { destruct (nth_error (eu_sw u2) i) eqn:Z; eauto. apply nth_error_None in Z. rewrite L, Es, set_len in Z. lia. }
      destruct (R i q Eq) as (q1 & Eq1 & _ & R2). rewrite Ni1 in Eq1. inversion Eq1; subst q1. rewrite (R2 Ni) in Eq. exists i, p'. simpl. rewrite E. auto.
    + intros j q [<-|Hj] Hq; [|eapply D3; eauto]. destruct (R i q Hq) as (q1 & E1 & _ & R2). rewrite Ni1 in E1. inversion E1; subst q1. rewrite (R2 Ni). lra.
Qed.

Lemma update_row num chk sw d i p p' : ep_update expf ds g1 g2 num chk sw d i p = Some p' ->
  q_x p' = q_x p /\ q_v p' = q_v p /\ q_px p' = q_px p /\ q_pv p' = q_pv p.
Proof.
  unfold ep_update. destruct (negb chk || (5 <? q_sl p)); intros H.
  - apply bind_Some in H. destruct H as (f & _ & H). inversion H; subst. cbn. auto.
  - inversion H; subst. auto.
Qed.

Lemma settle_row ngen k d p v p' : part_ok p -> ep_settle expf ds mt ngen k d p v = Some p' ->
  part_ok p' /\ q_px p' = q_px p /\ q_pv p' = q_pv p /\ q_fri p' = q_fri p /\ q_sl p' = q_sl p /\ half_slow ds (q_v p').
Proof.
  intros (A & B & C) H. unfold ep_settle in H. apply bind_Some in H. destruct H as (v' & Ev & H).
  pose proof (len_traverse _ _ _ _ Ev) as Lv. apply bind_Some in H. destruct H as (x & Ex & H). inversion H; subst p'; clear H.
  cbn [q_px q_pv q_v q_fri q_sl]. split; [|do 4 (split; [auto|])].
  - unfold HCLPSO_Proofs.part_ok. cbn [q_x q_px q_v]. split; [|split; auto]. eapply (settle_ok expf ds mt W DO); [|exact Ex].
    rewrite map2_len; [apply feasible_length; auto|]. rewrite (feasible_length _ _ A). auto.
  - eapply traverse_dims_Forall2; [|exact Ev]. eapply Forall_impl; [|exact W]. intros d0 (Hd & _) j c Hc. cbv beta in Hc.
    apply bind_Some in Hc. destruct Hc as (x0 & _ & Hc). inversion Hc; subst. apply (ep_clamp_slow d0 _ Hd).
Qed.

Definition moved (p p' : part) : Prop := part_ok p' /\ q_px p' = q_px p /\ q_pv p' = q_pv p /\ half_slow ds (q_v p').

Lemma update_ok_part p p' : q_x p' = q_x p /\ q_v p' = q_v p /\ q_px p' = q_px p /\ q_pv p' = q_pv p -> part_ok p -> part_ok p'.
Proof. intros (A & B & C & D) (E & F & G). unfold HCLPSO_Proofs.part_ok. rewrite A, B, C. auto. Qed.

Lemma move1_ok ngen k sw d i p p' : part_ok p -> ep_move1 expf ds mt g1 g2 ngen k sw d i p = Some p' -> moved p p'.
Proof.
  intros P H. unfold ep_move1 in H. apply bind_Some in H. destruct H as (q & Eq & H). apply bind_Some in H. destruct H as (v & _ & H).
  pose proof (update_row _ _ _ _ _ _ _ Eq) as R. pose proof (update_ok_part _ _ R P) as P2. apply settle_row in H; auto.
  unfold moved. destruct R as (_ & _ & R1 & R2). destruct H as (H1 & H2 & H3 & _ & _ & H4). split; auto. split; [congruence|]. split; [congruence|auto].
Qed.

Lemma move2_ok ngen k sw gt rk d i p p' s : part_ok p -> ep_move2 expf ds mt g1 g2 ngen k sw gt rk d i p = Some (p', s) ->
  moved p p' /\ ep_pick 0 rk (ed_prob d) = Some s.
Proof.
  intros P H. unfold ep_move2 in H. apply bind_Some in H. destruct H as (s' & Es & H). apply bind_Some in H. destruct H as ([q v] & Eq & H).
  apply bind_Some in H. destruct H as (q' & Eq' & H). inversion H; subst q' s'; clear H. split; auto.
  assert (R : q_x q = q_x p /\ q_v q = q_v p /\ q_px q = q_px p /\ q_pv q = q_pv p).
  { destruct s as [|[|[|[|s]]]]; try (apply bind_Some in Eq; destruct Eq as (w & _ & Eq); inversion Eq; subst; auto; fail).
    apply bind_Some in Eq. destruct Eq as (q1 & E1 & Eq). apply bind_Some in Eq. destruct Eq as (w & _ & Eq). inversion Eq; subst. eapply update_row; eauto. }
  pose proof (update_ok_part _ _ R P) as P2. apply settle_row in Eq'; auto.
  unfold moved. destruct R as (_ & _ & R1 & R2). destruct Eq' as (H1 & H2 & H3 & _ & _ & H4). split; auto. split; [congruence|]. split; [congruence|auto].
Qed.

(** One phase: rows move, then are evaluated; some rows of the swarm may be left alone. *)
Lemma nth_traverse {A B} (f : nat -> A -> option B) l l' i b : traverse f 0 l = Some l' -> nth_error l' i = Some b ->
  exists a, nth_error l i = Some a /\ f i a = Some b.
Proof.
  intros H E. apply traverse_spec in H. destruct H as (L & H). assert (i < length l) by (rewrite <- L; apply nth_error_Some; congruence).
  destruct (nth_len l i) as (a & Ea); auto. exists a. split; auto. destruct (H i a Ea) as (b' & Eb & Ef). simpl in Ef. congruence.
Qed.

Definition same_best (sw sw' : list part) : Prop :=
  length sw' = length sw /\ forall i p', nth_error sw' i = Some p' -> exists p, nth_error sw i = Some p /\ q_px p' = q_px p /\ q_pv p' = q_pv p.

Lemma same_alias sw sw' r gv : same_best sw sw' -> alias_ok sw r gv -> alias_ok sw' r gv.
Proof.
  intros (L & H) A. destruct r as [x|i]; simpl in *; auto. destruct A as (p & E & V). destruct (nth_len sw' i) as (p' & E').
  { rewrite L. apply nth_error_Some. congruence. }
  exists p'. split; auto. destruct (H i p' E') as (q & Eq & _ & V'). congruence.
Qed.
Lemma same_gx sw sw' r gx : same_best sw sw' -> ep_gx sw r = Some gx -> ep_gx sw' r = Some gx.
Proof.
  intros (L & H) A. destruct r as [x|i]; simpl in *; auto. apply bind_Some in A. destruct A as (p & E & V). destruct (nth_len sw' i) as (p' & E').
  { rewrite L. apply nth_error_Some. congruence. }
  rewrite E'. simpl. destruct (H i p' E') as (q & Eq & V' & _). congruence.
Qed.

Definition phase_ok (sw : list part) (gv : Q) (gx : list Q) (u : eust) : Prop :=
  length (eu_sw u) = length sw /\
  (forall i p', nth_error (eu_sw u) i = Some p' -> exists p q, nth_error sw i = Some p /\ moved p q /\ best_row q p') /\
  alias_ok (eu_sw u) (eu_ref u) (eu_gv u) /\
  exists gx', ep_gx (eu_sw u) (eu_ref u) = Some gx' /\
   ((gx' = gx /\ eu_gv u = gv) \/ exists i p', nth_error (eu_sw u) i = Some p' /\ q_px p' = gx' /\ q_pv p' = eu_gv u) /\
   (eu_gv u <= gv)%Q /\ (forall i p', nth_error (eu_sw u) i = Some p' -> (eu_gv u <= q_pv p')%Q).

Lemma best_part q p' : part_ok q -> best_row q p' -> part_ok p'.
Proof.
  intros (A & B & C) (D & E & F & [(G & H & I)|(G & H & I)]); unfold HCLPSO_Proofs.part_ok; rewrite D, E, H; auto.
Qed.

Lemma skip_seq {B} (l : list B) a : length l = n -> map fst (skipn a (combine (seq 0 n) l)) = seq a (n - a).
Proof.
  intros L. rewrite <- skipn_map, combine_fst by (rewrite seq_length; auto).
  clear. generalize n as N. intros N. destruct (Nat.le_gt_cases a N) as [H|H].
  - replace N with (a + (N - a)) at 1 by lia. rewrite seq_app. rewrite skipn_app_le by (rewrite seq_length; auto).
    rewrite skipn_all2 by (rewrite seq_length; auto). auto.
  - rewrite skipn_all2 by (rewrite seq_length; lia). replace (N - a) with 0 by lia. auto.
Qed.

Lemma exploit_ok ngen k gt drs st gx mm fl u : Forall part_ok (ep_sw st) -> length (ep_sw st) = n ->
  alias_ok (ep_sw st) (ep_ref st) (ep_gv st) -> ep_gx (ep_sw st) (ep_ref st) = Some gx ->
  ep_exploit expf m fit ds mt g1 g2 ngen k gt drs st = Some (mm, fl, u) -> phase_ok (ep_sw st) (ep_gv st) gx u.
Proof.
  intros P L A G H. unfold ep_exploit in H. apply bind_Some in H. destruct H as ([m1 f1] & Er & H).
  apply bind_Some in H. destruct H as (mv & Em & H). apply bind_Some in H. destruct H as (u2 & Eu & H). inversion H; subst mm fl u2; clear H.
  pose proof (len_traverse _ _ _ _ Em) as Lm.
  assert (R : forall i q, nth_error (map fst mv) i = Some q -> exists p, nth_error (ep_sw st) i = Some p /\ moved p q).
  { intros i q Hq. rewrite nth_error_map in Hq. destruct (nth_error mv i) as [[q0 s]|] eqn:E; [|discriminate]. inversion Hq; subst q0.
    destruct (nth_traverse _ _ _ _ _ Em E) as (p & Ep & Hp). exists p. split; auto. eapply move2_ok; eauto. rewrite Forall_forall in P. eapply P, nth_error_In; eauto. }
  assert (SB : same_best (ep_sw st) (map fst mv)).
  { split; [rewrite map_length; auto|]. intros i q Hq. destruct (R i q Hq) as (p & Ep & (_ & M1 & M2 & _)). eauto. }
  apply loop2_steps in Eu. rewrite combine_fst in Eu by (rewrite seq_length, map_length; lia).
  destruct (usteps_ok _ _ _ Eu (seq_NoDup _ _) (same_alias _ _ _ _ SB A) gx (same_gx _ _ _ _ SB G)) as (A' & L' & R' & gx' & G' & D1 & D2 & D3).
  cbn [eu_sw eu_gv eu_ref] in *. rewrite map_length in L'.
  assert (IN : forall i p', nth_error (eu_sw u) i = Some p' -> In i (seq 0 n)).
  { intros i p' Hp. apply in_seq. assert (i < length (eu_sw u)) by (apply nth_error_Some; congruence). lia. }
  split; [lia|]. split; [|split; [auto|]].
  - intros i p' Hp. destruct (R' i p' Hp) as (q & Eq & B1 & _). destruct (R i q Eq) as (p & Ep & M). exists p, q. eauto.
  - exists gx'. split; auto. split; [destruct D1 as [D1|(i & p' & _ & D1)]; eauto|]. split; auto. intros i p' Hp. eapply D3; eauto.
Qed.

Lemma explore_ok ngen k gt drs st gx mm fl u : Forall part_ok (ep_sw st) -> length (ep_sw st) = n ->
  alias_ok (ep_sw st) (ep_ref st) (ep_gv st) -> ep_gx (ep_sw st) (ep_ref st) = Some gx ->
  ep_explore expf m fit ds mt g1 g2 ngen k gt drs st = Some (mm, fl, u) -> phase_ok (ep_sw st) (ep_gv st) gx u.
Proof.
  intros P L A G H. unfold ep_explore in H. apply bind_Some in H. destruct H as (sw1 & E1 & H). apply bind_Some in H. destruct H as (u1 & Eu1 & H).
  pose proof (len_traverse _ _ _ _ E1) as L1.
  assert (R1 : forall i q, nth_error sw1 i = Some q -> exists p, nth_error (ep_sw st) i = Some p /\ (i < g1 -> moved p q) /\ (g1 <= i -> q = p)).
  { intros i q Hq. destruct (nth_traverse _ _ _ _ _ E1 Hq) as (p & Ep & Hp). exists p. split; auto. destruct (i <? g1) eqn:Ei.
    - apply Nat.ltb_lt in Ei. split; [|lia]. intros _. eapply move1_ok; eauto. rewrite Forall_forall in P. eapply P, nth_error_In; eauto.
    - apply Nat.ltb_ge in Ei. split; [lia|]. intros _. congruence. }
  assert (SB : same_best (ep_sw st) sw1).
  { split; auto. intros i q Hq. destruct (R1 i q Hq) as (p & Ep & M1 & M2). exists p. split; auto. destruct (Nat.lt_ge_cases i g1) as [Hi|Hi].
    - destruct (M1 Hi) as (_ & X & Y & _). auto. - rewrite (M2 Hi). auto. }
  apply loop1_steps in Eu1.
  destruct (usteps_ok _ _ _ Eu1 (seq_NoDup _ _) (same_alias _ _ _ _ SB A) gx (same_gx _ _ _ _ SB G)) as (A1 & L1' & R1' & gx1 & G1 & D1 & D2 & D3).
  cbn [eu_sw eu_gv eu_ref] in *.
  destruct (g2 =? 0) eqn:Eg2.
  - apply Nat.eqb_eq in Eg2. inversion H; subst mm fl u1; clear H.
    assert (IN : forall i p', nth_error (eu_sw u) i = Some p' -> In i (seq 0 g1)).
    { intros i p' Hp. apply in_seq. assert (i < length (eu_sw u)) by (apply nth_error_Some; congruence). lia. }
    split; [lia|]. split; [|split; [auto|]].
    + intros i p' Hp. destruct (R1' i p' Hp) as (q & Eq & B1 & _). destruct (R1 i q Eq) as (p & Ep & M & _). exists p, q. split; auto. split; [|eauto].
      apply M. specialize (IN i p' Hp). apply in_seq in IN. lia.
    + exists gx1. split; auto. split; [destruct D1 as [D1|(i & p' & _ & D1)]; eauto|]. split; auto. intros i p' Hp. eapply D3; eauto.
  - apply bind_Some in H. destruct H as ([m1 f1] & Er & H). apply bind_Some in H. destruct H as (mv & Em & H).
    apply bind_Some in H. destruct H as (u2 & Eu & H). inversion H; subst mm fl u2; clear H.
    pose proof (len_traverse _ _ _ _ Em) as Lm.
    assert (R2 : forall i q, nth_error (map fst mv) i = Some q -> exists p, nth_error (eu_sw u1) i = Some p /\ (i < g1 -> q = p) /\ (g1 <= i -> moved p q)).
    { intros i q Hq. rewrite nth_error_map in Hq. destruct (nth_error mv i) as [[q0 s]|] eqn:E; [|discriminate]. inversion Hq; subst q0.
      destruct (nth_traverse _ _ _ _ _ Em E) as (p & Ep & Hp). exists p. split; auto. destruct (i <? g1) eqn:Ei.
      - apply Nat.ltb_lt in Ei. split; [congruence|lia].
      - apply Nat.ltb_ge in Ei. split; [lia|]. intros _. eapply move2_ok; eauto.
        destruct (R1' i p Ep) as (q1 & Eq1 & _ & B2). assert (p = q1) as -> by (apply B2; rewrite in_seq; lia).
        destruct (R1 i q1 Eq1) as (p0 & Ep0 & _ & B3). rewrite (B3 Ei). rewrite Forall_forall in P. eapply P, nth_error_In; eauto. }
    assert (SB2 : same_best (eu_sw u1) (map fst mv)).
    { split; [rewrite map_length; auto|]. intros i q Hq. destruct (R2 i q Hq) as (p & Ep & M1 & M2). exists p. split; auto. destruct (Nat.lt_ge_cases i g1) as [Hi|Hi].
      - rewrite (M1 Hi). auto. - destruct (M2 Hi) as (_ & X & Y & _). auto. }
    apply loop2_steps in Eu. rewrite skip_seq in Eu by (rewrite map_length; lia). replace (n - g1) with g2 in Eu by lia.
    destruct (usteps_ok _ _ _ Eu (seq_NoDup _ _) (same_alias _ _ _ _ SB2 A1) gx1 (same_gx _ _ _ _ SB2 G1)) as (A' & L' & R' & gx' & G' & F1 & F2 & F3).
    cbn [eu_sw eu_gv eu_ref] in *. rewrite map_length in L'.
    assert (LT : forall i p', nth_error (eu_sw u) i = Some p' -> i < n).
    { intros i p' Hp. assert (i < length (eu_sw u)) by (apply nth_error_Some; congruence). lia. }
    (* rows of group 1 are not touched after the first loop *)
    assert (T : forall i p', i < g1 -> nth_error (eu_sw u) i = Some p' -> nth_error (eu_sw u1) i = Some p').
    { intros i p' Hi Hp. destruct (R' i p' Hp) as (q & Eq & _ & B2). rewrite (B2 ltac:(rewrite in_seq; lia)).
      destruct (R2 i q Eq) as (p & Ep & M1 & _). rewrite (M1 Hi). auto. }
    split; [lia|]. split; [|split; [auto|]].
    + intros i p' Hp. pose proof (LT i p' Hp) as Hn. destruct (Nat.lt_ge_cases i g1) as [Hi|Hi].
      * pose proof (T i p' Hi Hp) as Hp1. destruct (R1' i p' Hp1) as (q & Eq & B1 & _). destruct (R1 i q Eq) as (p & Ep & M & _).
        exists p, q. split; auto. split; auto. apply B1. rewrite in_seq. lia.
      * destruct (R' i p' Hp) as (q & Eq & B1 & _). destruct (R2 i q Eq) as (q1 & Eq1 & _ & M2).
        destruct (R1' i q1 Eq1) as (q2 & Eq2 & _ & B2). assert (q1 = q2) as -> by (apply B2; rewrite in_seq; lia).
        destruct (R1 i q2 Eq2) as (p & Ep & _ & B3). rewrite (B3 Hi) in *. exists p, q. split; auto. split; auto. apply B1. rewrite in_seq. lia.
    + exists gx'. split; auto. split; [|split; [lra|]].
      * destruct F1 as [(-> & EF)|(i & p' & _ & F1)]; [|right; eauto]. destruct D1 as [(-> & ED)|(i & p' & Hi & Hp & X & Y)]; [left; split; congruence|].
        right. rewrite in_seq in Hi. destruct (nth_len (eu_sw u) i) as (q' & Eq'); [lia|]. pose proof (T i q' ltac:(lia) Eq') as Z.
        rewrite Hp in Z. inversion Z; subst q'. exists i, p'. rewrite EF. auto.
      * intros i p' Hp. destruct (Nat.lt_ge_cases i g1) as [Hi|Hi].
        -- specialize (D3 i p' ltac:(rewrite in_seq; lia) (T i p' Hi Hp)). lra.
        -- apply (F3 i p'); auto. rewrite in_seq. specialize (LT i p' Hp). lia.
Qed.

(** Where an unbroken chain of events happened is the subject of EPSO_Rates.v; here the values. *)
Definition ep_inv (VU : Prop) (k : nat) (st : ep_state) : Prop :=
  Forall part_ok (ep_sw st) /\ length (ep_sw st) = n /\
  Forall (feasible ds) (ep_log st) /\ length (ep_log st) = n * (k + 1) /\
  (forall i p, nth_error (ep_sw st) i = Some p -> personal_best m fit n i (ep_log st) (q_px p) (q_pv p)) /\
  alias_ok (ep_sw st) (ep_ref st) (ep_gv st) /\
  (exists gx, ep_gx (ep_sw st) (ep_ref st) = Some gx /\ min_of g (ep_log st) gx (ep_gv st) /\ (k <> 0 -> ep_best st = Some (gx, ep_gv st))) /\
  (exists early, ep_log st = early ++ map q_x (ep_sw st)) /\
  length (ep_local st) = k /\ length (ep_global st) = k /\
  global_exact m fit n 2 (ep_log st) (ep_global st) /\ local_exact m fit n 2 (ep_log st) (ep_local st) /\
  (k <> 0 -> nth_error (ep_global st) (k - 1) = Some (as_min m (ep_gv st))) /\
  (VU -> Forall (fun p => half_slow ds (q_v p)) (ep_sw st)).

Lemma ep_step VU par lp ngen drs k st st' : 1 <= n -> ep_inv VU k st -> ep_gen expf m fit ds mt g1 g2 par lp ngen drs k st = Some st' -> ep_inv VU (S k) st'.
Proof.
  intros n1 (A & B & C & D & F & AL & (gx & G1 & G2 & G3) & (early & LE) & H1 & H2 & H3 & H4 & H5 & H6) H. unfold ep_gen in H.
  apply bind_Some in H. destruct H as (gt & Egt & H). cbv zeta in H. apply bind_Some in H. destruct H as ([[mm fl] u] & Ep & H).
  assert (PH : phase_ok (ep_sw st) (ep_gv st) gx u).
  { destruct (Qle_bool _ _); [eapply explore_ok; eauto|eapply exploit_ok; eauto]. }
  clear Ep. destruct (lp =? 0); [discriminate|]. apply bind_Some in H. destruct H as (pk & _ & H).
  apply bind_Some in H. destruct H as (gx2 & G2' & H). apply bind_Some in H. destruct H as ([ix lo] & Ea & H). inversion H; subst st'; clear H.
  destruct PH as (L & R & AL' & gx' & G' & D1 & D2 & D3). rewrite G' in G2'. inversion G2'; subst gx2; clear G2'.
  assert (OK : Forall part_ok (eu_sw u)).
  { apply Forall_forall. intros p Hp. apply In_nth_error in Hp. destruct Hp as (i & Hi). destruct (R i p Hi) as (p0 & q & _ & (M & _) & Bq). eapply best_part; eauto. }
  assert (Fx : Forall (feasible ds) (map q_x (eu_sw u))).
  { apply Forall_forall. intros x Hx. apply in_map_iff in Hx. destruct Hx as (p & <- & Hp). rewrite Forall_forall in OK. apply OK in Hp. apply Hp. }
  rewrite (map_score m fit ds W _ Fx) in Ea. rewrite (map_arg ds W _ Fx).
  set (xs := map q_x (eu_sw u)) in *. assert (Lx : length xs = n) by (unfold xs; rewrite map_length; lia).
  apply min_of_argmin in Ea. destruct Ea as (z0 & _ & M0).
  assert (PB : forall i p, nth_error (eu_sw u) i = Some p -> personal_best m fit n i (ep_log st ++ xs) (q_px p) (q_pv p)).
  { intros i p Hp. destruct (R i p Hp) as (p0 & q & E0 & (M1 & M2 & M3 & _) & (B1 & _ & _ & B2)). pose proof (F i p0 E0) as (P1 & P2 & P3).
    assert (Hi : i < n) by (rewrite <- B; apply nth_error_Some; congruence).
    assert (Xi : nth_error xs i = Some (q_x q)) by (unfold xs; rewrite nth_error_map, Hp; simpl; congruence).
    assert (VA : forall z, visited n i (ep_log st ++ xs) z <-> visited n i (ep_log st) z \/ nth_error xs i = Some z) by (intros; apply visited_app; eauto).
    rewrite pt_score_feasible in B2 by (auto; apply M1). destruct B2 as [(C1 & C2 & C3)|(C1 & C2 & C3)]; rewrite C2, C3.
    - split; [apply VA; auto|]. split; [reflexivity|].
      intros z Hz. apply VA in Hz. destruct Hz as [Hz|Hz]; [apply P3 in Hz; rewrite M3 in C1; lra|]. rewrite Xi in Hz. inversion Hz; subst. lra.
    - rewrite M2, M3 in *. split; [apply VA; auto|]. split; auto.
      intros z Hz. apply VA in Hz. destruct Hz as [Hz|Hz]; [apply P3 in Hz; lra|]. rewrite Xi in Hz. inversion Hz; subst. lra. }
  assert (GB : min_of g (ep_log st ++ xs) gx' (eu_gv u)).
  { split; [|split].
    - destruct D1 as [(-> & _)|(i & p & Hi & <- & _)]; [apply in_or_app; left; apply G2|]. destruct (PB i p Hi) as (V & _). eapply visited_in; eauto.
    - destruct D1 as [(-> & ->)|(i & p & Hi & <- & <-)]; [apply G2|]. destruct (PB i p Hi) as (_ & V & _). auto.
    - intros z Hz. destruct (in_visited n (ep_log st ++ xs) z (S k + 1)) as (i & Hi & Vi); auto.
      { rewrite app_length, D, Lx. nia. }
      destruct (nth_len (eu_sw u) i) as (p & Hp); [lia|]. destruct (PB i p Hp) as (_ & _ & V). specialize (V z Vi). specialize (D3 i p Hp). lra. }
  unfold ep_inv. cbn [ep_sw ep_ref ep_gv ep_best ep_local ep_global ep_log].
  split; [auto|]. split; [lia|]. split; [apply Forall_app; auto|]. split; [rewrite app_length, D, Lx; nia|].
  split; [auto|]. split; [auto|]. split; [exists gx'; auto|]. split; [exists (ep_log st); auto|].
  split; [rewrite app_length; simpl; lia|]. split; [rewrite app_length; simpl; lia|].
  split; [eapply global_exact_snoc; eauto; [rewrite D, H2; f_equal; lia|apply min_of_best; exact GB]|].
  split; [eapply local_exact_snoc; eauto; [rewrite D, H1; f_equal; lia|apply min_of_best; exact M0]|].
  split; [intros _; simpl; rewrite Nat.sub_0_r, nth_error_app2, H2, Nat.sub_diag by lia; reflexivity|].
  intros _. apply Forall_forall; intros p Hp; apply In_nth_error in Hp; destruct Hp as (i & Hi).
  destruct (R i p Hi) as (p0 & q & _ & (_ & _ & _ & M) & (_ & -> & _)). auto.
Qed.

Lemma gen_len u k : length (gen_indv ds u k) = dim.
Proof. unfold gen_indv. generalize 0. generalize ds. intros l. induction l; simpl; intros; auto. Qed.

Definition start_pos (x0 : option (list (list Q))) (di : nat -> einit) : option (list (list Q)) :=
  match x0 with
  | Some (x :: l) => if length (x :: l) =? n then Some (x :: l) else None
  | _ => Some (map (fun i => gen_indv ds (ei_u (di i)) (ei_k (di i))) (seq 0 n))
  end.
Lemma start_pos_ok x0 di pos : (forall l, x0 = Some l -> Forall (fun x => length x = dim) l) -> start_pos x0 di = Some pos ->
  length pos = n /\ Forall (fun x => length x = dim) pos.
Proof.
  intros H E. assert (K : forall p, Some (map (fun i => gen_indv ds (ei_u (di i)) (ei_k (di i))) (seq 0 n)) = Some p -> length p = n /\ Forall (fun x => length x = dim) p).
  { intros p X. inversion X; subst. rewrite map_length, seq_length. split; auto. apply Forall_forall. intros x Hx. apply in_map_iff in Hx.
    destruct Hx as (i & <- & _). apply gen_len. }
  unfold start_pos in E. destruct x0 as [[|x l]|]; auto. destruct (length (x :: l) =? n) eqn:El; [|discriminate]. inversion E; subst. apply Nat.eqb_eq in El. auto.
Qed.

Definition start_row (di : nat -> einit) (i : nat) (x : list Q) : option part :=
  let* v := traverse (fun j dm => Some (- ep_vmax dm + (ep_vmax dm - - ep_vmax dm) * ei_vel (di i) j)%Q) 0 ds in
  let* x := settle expf 1 mt (ei_vd (di i)) ds x in
  Some (Part x v x (score x) 0 []).
Definition vel_unit (di : nat -> einit) : Prop := forall i j, (0 <= ei_vel (di i) j)%Q /\ (ei_vel (di i) j <= 1)%Q.

Lemma start_row_ok di i x p : length x = dim -> start_row di i x = Some p ->
  part_ok p /\ q_px p = q_x p /\ q_pv p = g (q_x p) /\ settle expf 1 mt (ei_vd (di i)) ds x = Some (q_x p) /\ (vel_unit di -> half_slow ds (q_v p)).
Proof.
  intros L H. unfold start_row in H. apply bind_Some in H. destruct H as (v & Ev & H). apply bind_Some in H. destruct H as (x' & Ex & H). inversion H; subst p; clear H.
  pose proof (settle_ok expf ds mt W DO _ _ _ _ L Ex) as Fx. pose proof (len_traverse _ _ _ _ Ev) as Lv. cbn [q_px q_x q_pv q_v].
  rewrite pt_score_feasible by auto. unfold HCLPSO_Proofs.part_ok. cbn. do 4 (split; [auto|]). intros Hu.
  eapply traverse_dims_Forall2; [|exact Ev]. eapply Forall_impl; [|exact W]. intros d (Hd & _) j c Hc. inversion Hc; subst; clear Hc.
  unfold ep_vmax. destruct (Hu i j) as (U1 & U2). split; nra.
Qed.

Lemma start_ok par x0 di s0 : 1 <= n -> (forall l, x0 = Some l -> Forall (fun x => length x = dim) l) ->
  ep_start expf m fit ds mt g1 g2 par x0 di = Some s0 ->
  ep_inv (vel_unit di) 0 s0 /\ length (ep_log s0) = n /\ ep_mem s0 = None /\ ep_flag s0 = false /\ ep_fc s0 = (if par then 0 else n) /\ ep_rates s0 = [] /\ ep_evs s0 = [] /\ ep_best s0 = None /\
  (exists pos, start_pos x0 di = Some pos /\ length pos = n /\
     forall i x y, nth_error pos i = Some x -> nth_error (ep_log s0) i = Some y -> settle expf 1 mt (ei_vd (di i)) ds x = Some y).
Proof.
  intros n1 Hx H. unfold ep_start in H. fold (start_pos x0 di) in H. apply bind_Some in H. destruct H as (pos & Epos & H).
  destruct (start_pos_ok _ _ _ Hx Epos) as (Lp & Fp). apply bind_Some in H. destruct H as (sw0 & E0 & H). change (traverse (start_row di) 0 pos = Some sw0) in E0. cbv zeta in H.
  pose proof (len_traverse _ _ _ _ E0) as L0.
  assert (R0 : forall i p, nth_error sw0 i = Some p -> exists x, nth_error pos i = Some x /\
     part_ok p /\ q_px p = q_x p /\ q_pv p = g (q_x p) /\ settle expf 1 mt (ei_vd (di i)) ds x = Some (q_x p) /\ (vel_unit di -> half_slow ds (q_v p))).
  { intros i p Hp. destruct (nth_traverse _ _ _ _ _ E0 Hp) as (x & Ex & Hr). exists x. split; auto. apply start_row_ok; auto.
    rewrite Forall_forall in Fp. eapply Fp, nth_error_In; eauto. }
  assert (Fx : Forall (feasible ds) (map q_x sw0)).
  { apply Forall_forall. intros x Hx0. apply in_map_iff in Hx0. destruct Hx0 as (p & <- & Hp). apply In_nth_error in Hp. destruct Hp as (i & Hi).
    destruct (R0 i p Hi) as (? & _ & (K & _) & _). auto. }
  rewrite (map_score m fit ds W _ Fx), (map_arg ds W _ Fx) in H.
  apply bind_Some in H. destruct H as ([ix gv] & Ea & H). apply bind_Some in H. destruct H as (gx & Eg & H).
  destruct (n =? 1) eqn:E1; [discriminate|]. apply bind_Some in H. destruct H as (sw & Eu & H). inversion H; subst s0; clear H.
  apply min_of_argmin in Ea. destruct Ea as (z & Ez & M). rewrite Eg in Ez. inversion Ez; subst z.
  pose proof (len_traverse _ _ _ _ Eu) as Lu.
  assert (R1 : forall i p, nth_error sw i = Some p -> exists q, nth_error sw0 i = Some q /\ q_x p = q_x q /\ q_v p = q_v q /\ q_px p = q_px q /\ q_pv p = q_pv q).
  { intros i p Hp. destruct (nth_traverse _ _ _ _ _ Eu Hp) as (q & Eq & Hr). exists q. split; auto. eapply update_row; eauto. }
  assert (XS : map q_x sw = map q_x sw0).
  { apply nth_ext with (d := []) (d' := []); [rewrite !map_length; auto|]. intros i Hi. rewrite map_length in Hi.
    destruct (nth_len sw i Hi) as (p & Hp). destruct (R1 i p Hp) as (q & Hq & X & _).
    erewrite (nth_error_nth (map q_x sw)) by (rewrite nth_error_map, Hp; reflexivity). erewrite (nth_error_nth (map q_x sw0)) by (rewrite nth_error_map, Hq; reflexivity). auto. }
  cbn [ep_sw ep_ref ep_gv ep_mem ep_flag ep_fc ep_best ep_local ep_global ep_rates ep_log ep_evs]. split.
  - unfold ep_inv. cbn [ep_sw ep_ref ep_gv ep_mem ep_flag ep_fc ep_best ep_local ep_global ep_rates ep_log ep_evs].
    split. { apply Forall_forall. intros p Hp. apply In_nth_error in Hp. destruct Hp as (i & Hi). destruct (R1 i p Hi) as (q & Eq & K).
      destruct (R0 i q Eq) as (x & _ & P & _). eapply update_ok_part; [|exact P]. tauto. }
    split; [lia|]. split; [auto|]. split; [rewrite map_length; lia|].
    split. { intros i p Hp. destruct (R1 i p Hp) as (q & Eq & (U1 & U2 & U3 & U4)). destruct (R0 i q Eq) as (x & _ & _ & K1 & K2 & _). rewrite U3, U4, K1, K2.
      assert (Hi : i < n) by (rewrite <- Lp, <- L0; apply nth_error_Some; congruence).
      assert (Xi : nth_error (map q_x sw0) i = Some (q_x q)) by (rewrite nth_error_map, Eq; reflexivity).
      split; [exists 0; rewrite Nat.mul_0_r; auto|]. split; [reflexivity|].
      intros z (b & Hz). assert (n * b + i < length (map q_x sw0)) by (apply nth_error_Some; congruence). rewrite map_length in *.
      assert (b = 0) by nia. subst b. rewrite Nat.mul_0_r in Hz. cbn [plus] in Hz. rewrite Xi in Hz. inversion Hz; subst. lra. }
    split; [exact I|]. split; [exists gx; split; [reflexivity|]; split; [exact M|lia]|]. split; [exists []; simpl; auto|].
    split; [auto|]. split; [auto|]. split; [apply global_exact_nil|]. split; [apply local_exact_nil|]. split; [lia|].
    intros Hu. apply Forall_forall. intros p Hp. apply In_nth_error in Hp. destruct Hp as (i & Hi). destruct (R1 i p Hi) as (q & Eq & (U1 & U2 & U3 & U4)).
    rewrite U2. destruct (R0 i q Eq) as (x & _ & _ & _ & _ & _ & K). auto.
  - split; [rewrite map_length; lia|]. do 6 (split; [auto|]). exists pos. split; auto. split; auto. intros i x y Hx0 Hy.
    rewrite nth_error_map in Hy. destruct (nth_error sw0 i) as [p|] eqn:Ep; [|discriminate]. inversion Hy; subst y.
    destruct (R0 i p Ep) as (x' & Ex' & _ & _ & _ & K & _). congruence.
Qed.

Lemma ep_log_grows par lp ngen drs todo : forall k st st', gens (ep_gen expf m fit ds mt g1 g2 par lp ngen drs) k todo st = Some st' -> exists rest, ep_log st' = ep_log st ++ rest.
Proof.
  induction todo as [|t IH]; simpl; intros k st st' H; [inversion H; exists []; rewrite app_nil_r; auto|].
  apply bind_Some in H. destruct H as (s1 & E & H). apply IH in H. destruct H as (rest & ->). unfold ep_gen in E.
  apply bind_Some in E. destruct E as (gt & _ & E). cbv zeta in E. apply bind_Some in E. destruct E as ([[mm fl] u] & _ & E). destruct (lp =? 0); [discriminate|].
  apply bind_Some in E. destruct E as (pk & _ & E). apply bind_Some in E. destruct E as (gx & _ & E). apply bind_Some in E. destruct E as ([ix lo] & _ & E).
  inversion E; subst. cbn [ep_log]. rewrite <- app_assoc. eauto.
Qed.

Lemma ep_report par lp ngen x0 di drs r : 1 <= n -> (forall l, x0 = Some l -> Forall (fun x => length x = dim) l) ->
  ep_evolute expf m fit ds mt g1 g2 par lp ngen x0 di drs = Some r ->
  report m fit ds n 2 ngen (firstn n (epr_log r)) (epr_log r) (epr_x r) (epr_y r) (epr_hg r) (epr_pop r) (epr_pf r) /\
  length (epr_hl r) = ngen /\ local_exact m fit n 2 (epr_log r) (epr_hl r).
Proof.
  intros n1 Hx H. unfold ep_evolute in H. apply bind_Some in H. destruct H as (s0 & E0 & H). apply bind_Some in H. destruct H as (st & Eg & H).
  apply bind_Some in H. destruct H as ([x f] & Eb & H). inversion H; subst r; clear H.
  destruct (start_ok par x0 di s0 n1 Hx E0) as (I0 & _ & _ & _ & _ & _ & _ & B0 & _).
  assert (NZ : ngen <> 0) by (intros ->; simpl in Eg; inversion Eg; subst st; congruence).
  apply (gens_nat _ (ep_inv (vel_unit di))) with (1 := fun k s s' => ep_step (vel_unit di) par lp ngen drs k s s' n1) in Eg; auto. simpl in Eg.
  destruct Eg as (A & B & C & D & F & AL & (gx & G1 & G2 & G3) & (early & LE) & H1 & H2 & H3 & H4 & H5 & H6).
  rewrite (G3 NZ) in Eb. inversion Eb; subst x f; clear Eb.
  cbn [epr_x epr_y epr_hl epr_hg epr_pop epr_pf epr_log].
  split; [|auto]. unfold report. split; [apply min_of_best; exact G2|]. split; auto. split; [rewrite D; f_equal; lia|].
  split; [exists (skipn n (ep_log st)); rewrite firstn_skipn; auto|]. split; [eauto|]. split; auto. split; auto. split; [eapply global_exact_mono; eauto|].
  split; [auto|]. split; [rewrite map_length; auto|].
  clear - A W. induction (ep_sw st) as [|p l IH]; simpl; constructor; auto; [|apply IH; inversion A; auto].
  inversion A as [|? ? (P & _) _]; subst. rewrite pt_score_feasible by auto. apply as_min_invol.
Qed.

Lemma ep_first par lp ngen x0 di drs r : 1 <= n -> (forall l, x0 = Some l -> Forall (fun x => length x = dim) l) ->
  ep_evolute expf m fit ds mt g1 g2 par lp ngen x0 di drs = Some r -> keeps_ints mt ds ->
  forall l, x0 = Some l -> l <> [] -> Forall (feasible ds) l -> Forall2 (Forall2 Qeq) l (firstn n (epr_log r)).
Proof.
  intros n1 Hx H K l -> Hl Fl. unfold ep_evolute in H. apply bind_Some in H. destruct H as (s0 & E0 & H). apply bind_Some in H. destruct H as (st & Eg & H).
  apply bind_Some in H. destruct H as ([x f] & Eb & H). inversion H; subst r; clear H.
  destruct (start_ok par (Some l) di s0 n1 Hx E0) as (_ & L0 & _ & _ & _ & _ & _ & _ & (pos & Ep & Lp & HS)).
  apply ep_log_grows in Eg. destruct Eg as (rest & Er). cbn [epr_log]. rewrite Er, firstn_app_le by lia. rewrite firstn_all2 by lia.
  assert (pos = l). { unfold start_pos in Ep. destruct l as [|a l]; [congruence|]. destruct (_ =? n); congruence. } subst pos.
  assert (HF : forall i x y, nth_error l i = Some x -> nth_error (ep_log s0) i = Some y -> Forall2 Qeq x y).
  { intros i a b Ha Hb. pose proof (HS i a b Ha Hb) as S. unfold settle in S. rewrite Forall_forall in Fl. pose proof (Fl a (nth_error_In _ _ Ha)) as Fa.
    change (bnds ds) with (dim_bounds ds) in S. rewrite clip_id in S by (auto; apply feasible_inside; auto).
    destruct (ensure_keeps expf 1 mt (vd_rand (ei_vd (di i))) (vd_pick (ei_vd (di i))) ds a K W (feasible_inside _ _ Fa)) as (w & Ew & _ & Hw).
    unfold ensure_discrete in *. rewrite Ew in S. inversion S; subst b. apply Forall2_Qeq_sym. auto. }
  assert (LL : length l = length (ep_log s0)) by lia. clear - HF LL. revert HF LL. generalize (ep_log s0). induction l as [|a l IH]; intros [|b l'] HF LL; simpl in LL; try lia; constructor.
  - apply (HF 0); reflexivity.
  - apply IH; [|lia]. intros i x y Hx Hy. apply (HF (S i)); auto.
Qed.

Lemma ep_memory par lp ngen x0 di drs s0 k st : 1 <= n -> (forall l, x0 = Some l -> Forall (fun x => length x = dim) l) -> vel_unit di ->
  ep_start expf m fit ds mt g1 g2 par x0 di = Some s0 -> gens (ep_gen expf m fit ds mt g1 g2 par lp ngen drs) 0 k s0 = Some st ->
  length (ep_log st) = n * (k + 1) /\ length (ep_sw st) = n /\
  (forall i p, nth_error (ep_sw st) i = Some p -> personal_best m fit n i (ep_log st) (q_px p) (q_pv p) /\ half_slow ds (q_v p) /\ feasible ds (q_x p)) /\
  exists gx, ep_gx (ep_sw st) (ep_ref st) = Some gx /\ best_of m fit (ep_log st) gx (as_min m (ep_gv st)).
Proof.
  intros n1 Hx Hu E0 Eg. destruct (start_ok par x0 di s0 n1 Hx E0) as (I0 & _).
  apply (gens_nat _ (ep_inv (vel_unit di))) with (1 := fun k s s' => ep_step (vel_unit di) par lp ngen drs k s s' n1) in Eg; auto. simpl in Eg.
  destruct Eg as (A & B & C & D & F & AL & (gx & G1 & G2 & G3) & (early & LE) & H1 & H2 & H3 & H4 & H5 & H6).
  split; auto. split; auto. split.
  - intros i p Hp. split; auto. pose proof (nth_error_In _ _ Hp) as Hin. specialize (H6 Hu). rewrite Forall_forall in H6, A. split; auto. apply (A p Hin).
  - exists gx. split; auto. apply min_of_best. exact G2.
Qed.
End P.
