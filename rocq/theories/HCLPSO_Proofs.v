(** Proofs about HCLPSO. *)
From Coq Require Import List Arith ZArith QArith Qround Bool Lia Lqa.
From Verif Require Import Base BaseFacts Space_Model Space_Spec Space_Facts Opt_Model Opt_Spec Opt_Facts Opt_Facts2
  Pop_Model Pop_Spec Pop_Proofs Swarm_Model Swarm_Proofs HHO_Proofs HCLPSO_Model HCLPSO_Spec.
Import ListNotations.
Open Scope nat_scope.

Lemma clamp_slow d v : (d_lo d <= d_hi d)%Q -> (- hc_vmax d <= hc_clamp d v)%Q /\ (hc_clamp d v <= hc_vmax d)%Q.
Proof.
  intros H. unfold hc_clamp. assert (0 <= hc_vmax d)%Q by (unfold hc_vmax; lra).
  destruct (Qltb v (- hc_vmax d)) eqn:E1, (Qltb (hc_vmax d) v) eqn:E2, (Qltb v (hc_vmax d)) eqn:E3, (Qltb (- hc_vmax d) v) eqn:E4;
    cbn [andb]; qprop; split; lra.
Qed.

Lemma traverse_dims_Forall2 {A B} (f : nat -> A -> option B) (R : A -> B -> Prop) l : forall i l',
  Forall (fun a => forall k b, f k a = Some b -> R a b) l -> traverse f i l = Some l' -> Forall2 R l l'.
Proof.
  intros i l' F H. eapply traverse_Forall2; eauto. intros k a b Ha. rewrite Forall_forall in F. eauto.
Qed.

Lemma visited_app n i log blk z : i < n -> length blk = n -> (exists q, length log = n * q) ->
  visited n i (log ++ blk) z <-> visited n i log z \/ nth_error blk i = Some z.
Proof.
  intros Hi Lb (q & Lq). split.
  - intros (b & Hb). destruct (Nat.lt_ge_cases (n * b + i) (length log)) as [L|L].
    + rewrite nth_error_app1 in Hb by lia. left. exists b. auto.
    + rewrite nth_error_app2 in Hb by lia. right.
      assert (n * b + i - length log < length blk) by (apply nth_error_Some; congruence).
      assert (b = q) by nia. subst b. replace (n * q + i - length log) with i in Hb by lia. auto.
  - intros [(b & Hb)|Hz].
    + exists b. rewrite nth_error_app1; auto. apply nth_error_Some. congruence.
    + exists q. rewrite nth_error_app2 by lia. replace (n * q + i - length log) with i by lia. auto.
Qed.

Lemma in_visited n log z q : 1 <= n -> length log = n * q -> In z log -> exists i, i < n /\ visited n i log z.
Proof.
  intros Hn L H. apply In_nth_error in H. destruct H as (p & Hp).
  exists (p mod n). split; [apply Nat.mod_upper_bound; lia|]. exists (p / n).
  rewrite <- Nat.div_mod by lia. auto.
Qed.

Lemma visited_in n i log z : visited n i log z -> In z log.
Proof. intros (b & H). eapply nth_error_In; eauto. Qed.

Section P.
Context (expf : Q -> Q) (m : mode) (fit : list Q -> Q) (ds : list dimn) (mt : imethod).
Context (W : wf_dims ds) (DO : discrete_ok mt ds) (g1 g2 : nat).
Local Notation n := (g1 + g2).
Local Notation g := (fun x => as_min m (fit x)).
Local Notation dim := (length ds).

Definition part_ok (p : part) : Prop := feasible ds (q_x p) /\ feasible ds (q_px p) /\ length (q_v p) = dim.

Lemma len_traverse {A B} (f : nat -> A -> option B) l i l' : traverse f i l = Some l' -> length l' = length l.
Proof. intros H. apply traverse_spec in H. tauto. Qed.

Lemma map2_len {A B C} (f : A -> B -> C) l : forall r, length l = length r -> length (map2 f l r) = length l.
Proof. induction l; destruct r; simpl; intros; try lia; auto. Qed.

Lemma move_ok ngen k gx dr i p p' : part_ok p -> hc_move expf ds mt g1 ngen k gx dr i p = Some p' ->
  part_ok p' /\ q_px p' = q_px p /\ q_pv p' = q_pv p /\ slow ds (q_v p').
Proof.
  intros (A & B & C) H. unfold hc_move in H. cbv zeta in H. apply bind_Some in H. destruct H as (v & Ev & H).
  pose proof (len_traverse _ _ _ _ Ev) as Lv. apply bind_Some in H. destruct H as (x & Ex & H). inversion H; subst p'; clear H.
  cbn [q_px q_pv q_v]. split; [|split; [auto|split; [auto|]]].
  - unfold part_ok. cbn [q_x q_px q_v]. split; [|split; auto]. eapply (settle_ok expf ds mt W DO); [|exact Ex]. rewrite map2_len; [apply feasible_length; auto|]. rewrite (feasible_length _ _ A). auto.
  - eapply traverse_dims_Forall2; [|exact Ev]. eapply Forall_impl; [|exact W]. intros d (Hd & _) j c Hc. cbv zeta in Hc.
    apply bind_Some in Hc. destruct Hc as (x0 & _ & Hc). apply bind_Some in Hc. destruct Hc as (v0 & _ & Hc).
    apply bind_Some in Hc. destruct Hc as (f0 & _ & Hc). apply bind_Some in Hc. destruct Hc as (b0 & _ & Hc). inversion Hc; subst.
    apply (clamp_slow d _ Hd).
Qed.

(** UpdateParticles only touches the friends and the slopes. *)
Lemma update_ok num2 chk dr sw sw' : hc_update expf ds g1 g2 num2 chk dr sw = Some sw' ->
  Forall2 (fun p p' => q_x p' = q_x p /\ q_v p' = q_v p /\ q_px p' = q_px p /\ q_pv p' = q_pv p) sw sw'.
Proof.
  intros H. unfold hc_update in H. eapply traverse_Forall2; [|exact H]. cbv beta. intros k p p' _ Hp.
  destruct (negb chk || (5 <? q_sl p)).
  - apply bind_Some in Hp. destruct Hp as (f & _ & Hp). inversion Hp; subst. cbn. auto.
  - inversion Hp; subst. auto.
Qed.

Definition hc_inv (k : nat) (st : hc_state) : Prop :=
  Forall part_ok (hc_sw st) /\ length (hc_sw st) = n /\
  length (hc_first st) = n /\ Forall (feasible ds) (hc_first st) /\
  Forall (feasible ds) (hc_log st) /\ length (hc_log st) = n * k /\
  (forall i p, nth_error (hc_sw st) i = Some p -> personal_best m fit n i (hc_first st ++ hc_log st) (q_px p) (q_pv p)) /\
  min_of g (hc_first st ++ hc_log st) (fst (hc_g st)) (snd (hc_g st)) /\
  tracks g (hc_best st) (hc_log st) /\
  (k <> 0 -> exists early p, hc_log st = early ++ p /\ hc_last st = combine p (map g p) /\ length p = n) /\
  length (hc_local st) = k /\ length (hc_global st) = k /\
  global_exact m fit n 1 (hc_log st) (hc_global st) /\ local_exact m fit n 1 (hc_log st) (hc_local st) /\
  (k <> 0 -> exists x f, hc_best st = Some (x, f) /\ nth_error (hc_global st) (k - 1) = Some (as_min m f)) /\
  (k <> 0 -> Forall (fun p => slow ds (q_v p)) (hc_sw st)).

(** The global best: some personal best (or the old one), not above any personal best. *)
Lemma gbest_fold sw : forall b, 
  let b' := fold_left (fun b p => if Qltb (q_pv p) (snd b) then (q_px p, q_pv p) else b) sw b in
  (b' = b \/ exists p, In p sw /\ b' = (q_px p, q_pv p)) /\ (snd b' <= snd b)%Q /\ forall p, In p sw -> (snd b' <= q_pv p)%Q.
Proof.
  induction sw as [|p sw IH]; intros b; cbn [fold_left]; cbv zeta.
  - split; auto. split; [lra|]. simpl; tauto.
  - specialize (IH (if Qltb (q_pv p) (snd b) then (q_px p, q_pv p) else b)). cbv zeta in IH.
    set (b' := fold_left _ sw _) in *. destruct IH as (A & B & C). destruct (Qltb (q_pv p) (snd b)) eqn:E; qprop; cbn [fst snd] in *.
    + split; [destruct A as [->|(q & Hq & ->)]; right; [exists p|exists q]; simpl; auto|]. split; [lra|]. intros q [->|Hq]; auto.
    + split; [destruct A as [->|(q & Hq & ->)]; [auto|right; exists q; simpl; auto]|]. split; [lra|]. intros q [->|Hq]; auto. lra.
Qed.

Lemma Forall2_nth {A B} (R : A -> B -> Prop) l l' i b : Forall2 R l l' -> nth_error l' i = Some b -> exists a, nth_error l i = Some a /\ R a b.
Proof. intros H. revert i. induction H; intros [|i]; simpl; intros E; try discriminate; eauto. inversion E; subst; eauto. Qed.

Lemma hc_step ngen drs k st st' : 1 <= n -> hc_inv k st -> hc_gen expf m fit ds mt g1 g2 ngen drs k st = Some st' -> hc_inv (S k) st'.
Proof.
  intros n1 (A & B & C1 & C2 & D & E & F & G & H1 & H2 & H3 & H4 & H5 & H6 & H7 & H8) H. unfold hc_gen in H. cbv zeta in H.
  apply bind_Some in H. destruct H as (sw1 & Em & H). apply bind_Some in H. destruct H as (sw3 & Eu & H).
  apply bind_Some in H. destruct H as ([bx bf] & Eb & H). apply bind_Some in H. destruct H as ([ix lo] & Ea & H). inversion H; subst st'; clear H.
  pose proof (len_traverse _ _ _ _ Em) as L1.
  assert (R1 : Forall2 (fun p p' => part_ok p' /\ q_px p' = q_px p /\ q_pv p' = q_pv p /\ slow ds (q_v p')) (hc_sw st) sw1).
  { eapply traverse_Forall2; [|exact Em]. intros j p p' Hp Hm. eapply move_ok; eauto. rewrite Forall_forall in A. auto. }
  assert (Fx : Forall (feasible ds) (map q_x sw1)).
  { apply Forall_forall. intros x Hx. apply in_map_iff in Hx. destruct Hx as (p & <- & Hp).
    apply In_nth_error in Hp. destruct Hp as (i & Hi). destruct (Forall2_nth _ _ _ _ _ R1 Hi) as (q & _ & (Ok & _) & _). exact Ok. }
  rewrite (map_score m fit ds W _ Fx) in Eb, Ea |- *. rewrite (map_arg ds W _ Fx).
  set (xs := map q_x sw1) in *. assert (Lx : length xs = n) by (unfold xs; rewrite map_length; lia).
  assert (T : tracks g (track (hc_best st) (combine xs (map g xs))) (hc_log st ++ map fst (combine xs (map g xs)))).
  { apply track_tracks; [exact H1|apply (combine_score g)]. }
  rewrite combine_fst in T by (rewrite map_length; auto).
  apply min_of_argmin in Ea. destruct Ea as (z0 & _ & M0).
  set (all := hc_first st ++ hc_log st) in *.
  assert (La : length all = n * S k) by (unfold all; rewrite app_length, C1, E, Nat.mul_succ_r; lia).
  assert (PB : forall i p, nth_error (map (hc_best1 m fit ds) sw1) i = Some p -> personal_best m fit n i (all ++ xs) (q_px p) (q_pv p) /\ part_ok p /\ slow ds (q_v p)).
  { intros i p Hp. rewrite nth_error_map in Hp. destruct (nth_error sw1 i) as [q|] eqn:Eq; [|discriminate]. inversion Hp; subst p; clear Hp.
    destruct (Forall2_nth _ _ _ _ _ R1 Eq) as (o & Eo & (Oq & Opx & Opv & Osl)). pose proof (F i o Eo) as (P1 & P2 & P3).
    assert (Hi : i < n) by (rewrite <- B; apply nth_error_Some; congruence).
    assert (Xi : nth_error xs i = Some (q_x q)) by (unfold xs; rewrite nth_error_map, Eq; reflexivity).
    assert (VA : forall z, visited n i (all ++ xs) z <-> visited n i all z \/ nth_error xs i = Some z) by (intros; apply visited_app; eauto).
    unfold hc_best1. cbv zeta. rewrite pt_score_feasible by (auto; apply Oq). destruct (Qltb (as_min m (fit (q_x q))) (q_pv q)) eqn:Eq'; qprop; cbn [q_px q_pv q_v].
    - split; [|split; [split; cbn; [apply Oq|split; [apply Oq|apply Oq]]|auto]]. split; [apply VA; auto|]. split; [reflexivity|].
      intros z Hz. apply VA in Hz. destruct Hz as [Hz|Hz]; [apply P3 in Hz; rewrite Opv in Eq'; lra|]. rewrite Xi in Hz. inversion Hz; subst. lra.
    - split; [|split; [split; cbn; [apply Oq|split; [apply Oq|apply Oq]]|auto]]. rewrite Opx, Opv. split; [apply VA; auto|]. split; auto.
      intros z Hz. apply VA in Hz. destruct Hz as [Hz|Hz]; [apply P3 in Hz; lra|]. rewrite Xi in Hz. inversion Hz; subst. rewrite Opv in Eq'. lra. }
  pose proof (update_ok _ _ _ _ _ Eu) as R3.
  assert (L3 : length sw3 = n). { apply Forall2_length in R3. rewrite map_length in R3. lia. }
  assert (PB3 : forall i p, nth_error sw3 i = Some p -> personal_best m fit n i (all ++ xs) (q_px p) (q_pv p) /\ part_ok p /\ slow ds (q_v p)).
  { intros i p Hp. destruct (Forall2_nth _ _ _ _ _ R3 Hp) as (q & Eq & (U1 & U2 & U3 & U4)). destruct (PB i q Eq) as (K1 & K2 & K3).
    unfold part_ok. rewrite U1, U2, U3, U4. auto. }
  assert (GB : let gb := fold_left (fun b p => if Qltb (q_pv p) (snd b) then (q_px p, q_pv p) else b) (map (hc_best1 m fit ds) sw1) (hc_g st) in
     min_of g (all ++ xs) (fst gb) (snd gb)).
  { cbv zeta. pose proof (gbest_fold (map (hc_best1 m fit ds) sw1) (hc_g st)) as GF. cbv zeta in GF.
    set (gb := fold_left _ _ _) in *. destruct GF as (K1 & K2 & K3). split; [|split].
    - destruct K1 as [->|(p & Hp & ->)]; [apply in_or_app; left; apply G|]. cbn [fst]. apply In_nth_error in Hp. destruct Hp as (i & Hi).
      destruct (PB i p Hi) as ((V & _) & _). eapply visited_in; eauto.
    - destruct K1 as [->|(p & Hp & ->)]; [apply G|]. cbn [fst snd]. apply In_nth_error in Hp. destruct Hp as (i & Hi).
      destruct (PB i p Hi) as ((_ & V & _) & _). exact V.
    - intros z Hz. destruct (in_visited n (all ++ xs) z (S (S k))) as (i & Hi & Vi); auto.
      { rewrite app_length, La, Lx, (Nat.mul_succ_r n (S k)). lia. }
      destruct (nth_len (map (hc_best1 m fit ds) sw1) i) as (p & Ep); [rewrite map_length; lia|].
      destruct (PB i p Ep) as ((_ & _ & V) & _). specialize (V z Vi). specialize (K3 p (nth_error_In _ _ Ep)). lra. }
  unfold hc_inv. cbn [hc_sw hc_g hc_best hc_last hc_local hc_global hc_first hc_log]. rewrite app_assoc. fold all.
  assert (Hb : best_of m fit (hc_log st ++ xs) bx (as_min m bf)). { apply min_of_best. rewrite Eb in T. exact T. }
  split; [apply Forall_forall; intros p Hp; apply In_nth_error in Hp; destruct Hp as (i & Hi); apply PB3 in Hi; tauto|].
  split; [auto|]. split; [auto|]. split; [auto|]. split; [apply Forall_app; auto|]. split; [rewrite app_length, E, Lx, Nat.mul_succ_r; lia|].
  split; [intros i p Hp; apply PB3; auto|]. split; [exact GB|]. split; [exact T|].
  split; [intros _; exists (hc_log st), xs; auto|].
  split; [rewrite app_length; simpl; lia|]. split; [rewrite app_length; simpl; lia|].
  split; [eapply global_exact_snoc; eauto; rewrite E, H4; f_equal; lia|].
  split; [eapply local_exact_snoc; eauto; [rewrite E, H3; f_equal; lia|apply min_of_best; exact M0]|].
  split; [intros _; exists bx, bf; split; auto; simpl; rewrite Nat.sub_0_r, nth_error_app2, H4, Nat.sub_diag by lia; reflexivity|].
  intros _. apply Forall_forall; intros p Hp; apply In_nth_error in Hp; destruct Hp as (i & Hi); apply PB3 in Hi; tauto.
Qed.

Lemma start_rows di sw0 : traverse (fun i (_ : nat) =>
      let d := di i in
      let* v0 := traverse (fun j dm => Some (d_lo dm + (d_hi dm - d_lo dm) * ci_pos d j)%Q) 0 ds in
      let* x := settle expf 1 mt (ci_vd d) ds v0 in
      let* v := traverse (fun j dm => Some (- hc_vmax dm + (hc_vmax dm - - hc_vmax dm) * ci_vel d j)%Q) 0 ds in
      Some (Part x v x (pt_score m fit ds x) 0 [])) 0 (seq 0 n) = Some sw0 ->
  length sw0 = n /\ Forall (fun p => part_ok p /\ q_px p = q_x p /\ q_pv p = g (q_x p)) sw0 /\
  ((forall i j, (0 <= ci_vel (di i) j)%Q /\ (ci_vel (di i) j <= 1)%Q) -> Forall (fun p => slow ds (q_v p)) sw0).
Proof.
  intros H. pose proof (len_traverse _ _ _ _ H) as L. rewrite seq_length in L. split; auto.
  assert (K : Forall2 (fun (_ : nat) p => (part_ok p /\ q_px p = q_x p /\ q_pv p = g (q_x p)) /\
     ((forall i j, (0 <= ci_vel (di i) j)%Q /\ (ci_vel (di i) j <= 1)%Q) -> slow ds (q_v p))) (seq 0 n) sw0).
  { eapply traverse_Forall2; [|exact H]. cbv zeta. intros k a p _ Hp. apply bind_Some in Hp. destruct Hp as (v0 & E0 & Hp).
    apply bind_Some in Hp. destruct Hp as (x & Ex & Hp). apply bind_Some in Hp. destruct Hp as (v & Ev & Hp). inversion Hp; subst p; clear Hp.
    apply len_traverse in E0. pose proof (settle_ok expf ds mt W DO _ _ _ _ E0 Ex) as Fx. pose proof (len_traverse _ _ _ _ Ev) as Lv.
    cbn [q_px q_x q_pv q_v]. rewrite pt_score_feasible by auto. split; [split; [|auto]|].
    - unfold part_ok. cbn. auto.
    - intros Hu. eapply traverse_dims_Forall2; [|exact Ev]. eapply Forall_impl; [|exact W]. intros d (Hd & _) j c Hc. inversion Hc; subst; clear Hc.
      unfold hc_vmax. destruct (Hu k j) as (U1 & U2). split; nra. }
  split.
  - clear - K. induction K; constructor; tauto.
  - intros Hu. clear - K Hu. induction K; constructor; auto. tauto.
Qed.

Lemma start_ok di s0 : 1 <= n -> hc_start expf m fit ds mt g1 g2 di = Some s0 -> hc_inv 0 s0 /\ hc_log s0 = [] /\
  ((forall i j, (0 <= ci_vel (di i) j)%Q /\ (ci_vel (di i) j <= 1)%Q) -> Forall (fun p => slow ds (q_v p)) (hc_sw s0)).
Proof.
  intros n1 H. unfold hc_start in H. apply bind_Some in H. destruct H as (sw0 & E0 & H). cbv zeta in H.
  destruct (start_rows di sw0 E0) as (L0 & R0 & S0).
  assert (Fx : Forall (feasible ds) (map q_x sw0)).
  { apply Forall_forall. intros x Hx. apply in_map_iff in Hx. destruct Hx as (p & <- & Hp). rewrite Forall_forall in R0. apply R0 in Hp. destruct Hp as ((Hp & _) & _). auto. }
  rewrite (map_score m fit ds W _ Fx), (map_arg ds W _ Fx) in H.
  apply bind_Some in H. destruct H as ([ix gv] & Ea & H). apply bind_Some in H. destruct H as (gx & Eg & H).
  destruct (n =? 1) eqn:E1; [discriminate|]. apply bind_Some in H. destruct H as (sw & Eu & H). inversion H; subst s0; clear H.
  apply min_of_argmin in Ea. destruct Ea as (z & Ez & M). rewrite Eg in Ez. inversion Ez; subst z.
  pose proof (update_ok _ _ _ _ _ Eu) as R3. assert (L3 : length sw0 = length sw) by (eapply Forall2_length; eauto).
  unfold hc_inv. cbn [hc_sw hc_g hc_best hc_last hc_local hc_global hc_first hc_log]. rewrite app_nil_r. split; [|split; auto].
  - split. { apply Forall_forall. intros p Hp. apply In_nth_error in Hp. destruct Hp as (i & Hi). destruct (Forall2_nth _ _ _ _ _ R3 Hi) as (q & Eq & (U1 & U2 & U3 & U4)).
      rewrite Forall_forall in R0. specialize (R0 q (nth_error_In _ _ Eq)). unfold part_ok. rewrite U1, U2, U3. apply R0. }
    split; [lia|]. split; [rewrite map_length; auto|]. split; [auto|]. split; [constructor|]. split; [simpl; lia|].
    split. { intros i p Hp. destruct (Forall2_nth _ _ _ _ _ R3 Hp) as (q & Eq & (U1 & U2 & U3 & U4)).
      rewrite Forall_forall in R0. specialize (R0 q (nth_error_In _ _ Eq)). destruct R0 as (_ & K1 & K2). rewrite U3, U4, K1, K2.
      assert (Hi : i < n) by (rewrite <- L0; apply nth_error_Some; congruence).
      assert (Xi : nth_error (map q_x sw0) i = Some (q_x q)) by (rewrite nth_error_map, Eq; reflexivity).
      split; [exists 0; rewrite Nat.mul_0_r; auto|]. split; [reflexivity|].
      intros z (b & Hz). assert (n * b + i < length (map q_x sw0)) by (apply nth_error_Some; congruence). rewrite map_length in *.
      assert (b = 0) by nia. subst b. rewrite Nat.mul_0_r in Hz. cbn [plus] in Hz. rewrite Xi in Hz. inversion Hz; subst. lra. }
    split; [exact M|]. split; [reflexivity|]. split; [lia|]. split; [auto|]. split; [auto|].
    split; [apply global_exact_nil|]. split; [apply local_exact_nil|]. split; lia.
  - intros Hu. apply S0 in Hu. apply Forall_forall. intros p Hp. apply In_nth_error in Hp. destruct Hp as (i & Hi). destruct (Forall2_nth _ _ _ _ _ R3 Hi) as (q & Eq & (U1 & U2 & U3 & U4)).
    rewrite U2. rewrite Forall_forall in Hu. apply Hu. eapply nth_error_In; eauto.
Qed.

Lemma hc_best_ok ngen di drs x0 r : 1 <= n -> hc_evolute expf m fit ds mt g1 g2 ngen di drs x0 = Some r ->
  best_of m fit (hcr_log r) (hcr_x r) (hcr_y r) /\ Forall (feasible ds) (hcr_first r ++ hcr_log r) /\
  length (hcr_first r) = n /\ length (hcr_log r) = n * ngen /\ 
  length (hcr_hg r) = ngen /\ global_exact m fit n 1 (hcr_log r) (hcr_hg r) /\ never_worse m (hcr_hg r) /\
  nth_error (hcr_hg r) (ngen - 1) = Some (hcr_y r) /\
  length (hcr_hl r) = ngen /\ local_exact m fit n 1 (hcr_log r) (hcr_hl r) /\
  length (hcr_pop r) = n /\ (exists early, hcr_log r = early ++ hcr_pop r) /\ Forall2 (fun z v => (v == fit z)%Q) (hcr_pop r) (hcr_pf r).
Proof.
  intros n1 H. unfold hc_evolute in H. cbv zeta in H. destruct (negb _); [discriminate|].
  apply bind_Some in H. destruct H as (s0 & E0 & H). apply bind_Some in H. destruct H as (st & Eg & H).
  apply bind_Some in H. destruct H as ([x f] & Eb & H). inversion H; subst r; clear H.
  destruct (start_ok di s0 n1 E0) as (I0 & _).
  apply (gens_nat _ hc_inv) with (1 := fun k s s' => hc_step ngen drs k s s' n1) in Eg; auto. simpl in Eg.
  destruct Eg as (A & B & C1 & C2 & D & E & F & G & H1 & H2 & H3 & H4 & H5 & H6 & H7 & H8).
  rewrite Eb in H1. simpl in H1.
  assert (E0' : ngen <> 0). { intros Z. rewrite Z in E. destruct H1 as (C & _). destruct (hc_log st); [inversion C|simpl in E; lia]. }
  destruct (H2 E0') as (early & p & P1 & P2 & P3). destruct (H7 E0') as (x' & f' & X1 & X2).
  cbn [hcr_x hcr_y hcr_hl hcr_hg hcr_pop hcr_pf hcr_first hcr_log].
  repeat match goal with |- _ /\ _ => split end; auto.
  - apply min_of_best. exact H1.
  - apply Forall_app; auto.
  - eapply global_exact_mono; eauto.
  - rewrite X2. rewrite X1 in Eb. inversion Eb; subst. reflexivity.
  - rewrite map_length, P2, combine_length, map_length. lia.
  - exists early. rewrite P2, combine_fst; auto. rewrite map_length; auto.
  - rewrite P2. clear. induction p; simpl; constructor; auto. apply as_min_invol.
Qed.

Lemma hc_memory ngen di drs s0 k st : 1 <= n -> (forall i j, (0 <= ci_vel (di i) j)%Q /\ (ci_vel (di i) j <= 1)%Q) ->
  hc_start expf m fit ds mt g1 g2 di = Some s0 -> gens (hc_gen expf m fit ds mt g1 g2 ngen drs) 0 k s0 = Some st ->
  let log := hc_first st ++ hc_log st in
  length log = n * (k + 1) /\ length (hc_sw st) = n /\
  (forall i p, nth_error (hc_sw st) i = Some p -> personal_best m fit n i log (q_px p) (q_pv p) /\ slow ds (q_v p) /\ feasible ds (q_x p)) /\
  best_of m fit log (fst (hc_g st)) (as_min m (snd (hc_g st))).
Proof.
  intros n1 Hu E0 Eg. cbv zeta. destruct (start_ok di s0 n1 E0) as (I0 & _ & S0).
  assert (V : Forall (fun p => slow ds (q_v p)) (hc_sw st)).
  { destruct k; [simpl in Eg; inversion Eg; subst; auto|].
    apply (gens_nat _ hc_inv) with (1 := fun k s s' => hc_step ngen drs k s s' n1) in Eg; auto.
    destruct Eg as (_ & _ & _ & _ & _ & _ & _ & _ & _ & _ & _ & _ & _ & _ & _ & H). apply H. simpl. lia. }
  apply (gens_nat _ hc_inv) with (1 := fun k s s' => hc_step ngen drs k s s' n1) in Eg; auto. simpl in Eg.
  destruct Eg as (A & B & C1 & C2 & D & E & F & G & _).
  split; [rewrite app_length, C1, E, Nat.mul_add_distr_l; lia|]. split; auto. split.
  - intros i p Hp. split; auto. pose proof (nth_error_In _ _ Hp) as Hin. rewrite Forall_forall in V, A. split; auto. apply (A p Hin).
  - apply min_of_best. exact G.
Qed.

(** Totality. *)
Lemma friend_lt num u : 1 <= n -> num <= n -> (u <= 1)%Q -> hc_friend g1 g2 num u < n.
Proof.
  intros n1 Hn Hu. unfold hc_friend. cbv zeta. destruct (Z.leb_spec (Qceiling (qnat num * u)) 0); [lia|].
  assert (Qceiling (qnat num * u) <= Z.of_nat num)%Z; [|lia].
  transitivity (Qceiling (qnat num)).
  - apply Qceiling_resp_le. assert (0 <= qnat num)%Q by (unfold qnat; change 0%Q with (inject_Z 0); rewrite <- Zle_Qle; lia). nra.
  - unfold qnat. rewrite Qceiling_Z. lia.
Qed.

Lemma traverse_total_len {A B} (f : nat -> A -> option B) l : forall i0, (forall k a, k < length l -> exists b, f (i0 + k) a = Some b) -> exists l', traverse f i0 l = Some l'.
Proof.
  induction l as [|a l IH]; intros i0 H; cbn [traverse]; eauto.
  destruct (H 0 a) as (b & Eb); [simpl; lia|]. rewrite Nat.add_0_r in Eb. rewrite Eb. cbn [bind].
  destruct (IH (S i0)) as (l' & ->). { intros k a' Hk. destruct (H (S k) a') as (b' & E'); [simpl; lia|]. exists b'. rewrite <- E'. f_equal. lia. }
  cbn [bind]. eauto.
Qed.

Lemma learn_total sw num d i : 1 <= n -> length sw = n -> Forall part_ok sw -> num <= n -> i < n -> unit_f d -> exists f, hc_learn expf ds g1 g2 sw num d i = Some f.
Proof.
  intros n1 L F Hn Hi Hu. unfold hc_learn. cbv zeta. apply traverse_total_len. intros j a Hj. simpl.
  destruct (Hu j) as (U1 & U2). pose proof (friend_lt num _ n1 Hn U1) as K1. pose proof (friend_lt num _ n1 Hn U2) as K2.
  destruct (nth_len sw (hc_friend g1 g2 num (fd_1 d j))) as (p1 & ->); [lia|]. cbn [bind].
  destruct (nth_len sw (hc_friend g1 g2 num (fd_2 d j))) as (p2 & ->); [lia|]. cbn [bind].
  match goal with |- context [nth_error sw ?k] => destruct (nth_len sw k) as (p & Ep) end.
  { destruct (_ && _); [lia|]. destruct (Qltb _ _); lia. }
  rewrite Ep. cbn [bind]. apply nth_len. rewrite Forall_forall in F. destruct (F p (nth_error_In _ _ Ep)) as (_ & Fp & _). rewrite (feasible_length _ _ Fp). auto.
Qed.

Lemma learn_len sw num d i f : hc_learn expf ds g1 g2 sw num d i = Some f -> length f = dim.
Proof. unfold hc_learn. cbv zeta. intros H. apply len_traverse in H. auto. Qed.

Lemma update_total num2 chk dr sw : 1 <= n -> length sw = n -> Forall part_ok sw -> num2 <= n -> (forall i, unit_f (dr i)) ->
  exists sw', hc_update expf ds g1 g2 num2 chk dr sw = Some sw'.
Proof.
  intros n1 L F H2 Hu. unfold hc_update. apply traverse_total_len. intros i p Hi. simpl.
  destruct (negb chk || (5 <? q_sl p)); [|eauto].
  destruct (learn_total sw (if i <? g1 then g1 else num2) (dr i) i) as (f & ->); auto; [destruct (i <? g1); lia|lia|]. cbn [bind]. eauto.
Qed.

Lemma update_fri num2 chk dr sw sw' : hc_update expf ds g1 g2 num2 chk dr sw = Some sw' -> (chk = false \/ Forall (fun p => length (q_fri p) = dim) sw) ->
  Forall (fun p => length (q_fri p) = dim) sw'.
Proof.
  intros H Hc. unfold hc_update in H. 
  assert (K : Forall2 (fun (p p' : part) => length (q_fri p') = dim) sw sw').
  { eapply traverse_Forall2; [|exact H]. cbv beta. intros k p p' Hp E. destruct (negb chk || (5 <? q_sl p)) eqn:Eb.
    - apply bind_Some in E. destruct E as (f & Ef & E). inversion E; subst. cbn [q_fri]. eapply learn_len; eauto.
    - inversion E; subst. destruct Hc as [->|Hc]; [discriminate|]. rewrite Forall_forall in Hc. auto. }
  clear - K. induction K; constructor; auto.
Qed.

Lemma hc_total ngen di drs x0 : 2 <= n -> ngen <> 0 -> (forall l, x0 = Some l -> length l = n) ->
  (forall i, unit_f (ci_f (di i))) -> (forall k i, unit_f (cd_f (drs k i))) ->
  exists r, hc_evolute expf m fit ds mt g1 g2 ngen di drs x0 = Some r.
Proof.
  intros n2 Hg Hx Hi Hd. assert (n1 : 1 <= n) by lia. unfold hc_evolute. cbv zeta.
  replace (negb _) with false. 2:{ destruct x0 as [[|a l]|]; auto. rewrite (Hx _ eq_refl), Nat.eqb_refl. auto. }
  assert (S0 : exists s0, hc_start expf m fit ds mt g1 g2 di = Some s0 /\ Forall (fun p => length (q_fri p) = dim) (hc_sw s0)).
  { unfold hc_start.
    match goal with |- context [traverse ?f 0 (seq 0 n)] => destruct (traverse_total_len f (seq 0 n) 0) as (sw0 & E0) end.
    { intros i a _. cbv zeta. change (0 + i) with i.
      destruct (traverse_total_len (fun j dm => Some (d_lo dm + (d_hi dm - d_lo dm) * ci_pos (di i) j)%Q) ds 0) as (v0 & Ev); [eauto|]. rewrite Ev. cbn [bind].
      destruct (settle_total expf ds W 1 mt (ci_vd (di i)) v0) as (x & -> & _); [apply len_traverse in Ev; auto|auto|]. cbn [bind].
      destruct (traverse_total_len (fun j dm => Some (- hc_vmax dm + (hc_vmax dm - - hc_vmax dm) * ci_vel (di i) j)%Q) ds 0) as (v & ->); [eauto|]. cbn [bind]. eauto. }
    destruct (start_rows di sw0 E0) as (L0 & R0 & _). rewrite E0. cbn [bind]. cbv zeta.
    destruct (argmin_Some (map (pt_score m fit ds) (map q_x sw0))) as (ix & v & Ea). { intros Z. apply map_eq_nil, map_eq_nil in Z. subst. simpl in L0. lia. }
    rewrite Ea. cbn [bind]. destruct (argmin_spec _ _ _ Ea) as (Hz & _). rewrite nth_error_map in Hz.
    destruct (nth_error (map q_x sw0) ix) as [gx|] eqn:Eg; [|discriminate]. cbn [bind].
    replace (n =? 1) with false by (symmetry; apply Nat.eqb_neq; lia).
    destruct (update_total n false (fun i => ci_f (di i)) sw0) as (sw & Eu); auto. { eapply Forall_impl; [|exact R0]. cbv beta. tauto. }
    rewrite Eu. cbn [bind]. eexists. split; [reflexivity|]. cbn [hc_sw]. eapply update_fri; eauto. }
  destruct S0 as (s0 & E0 & F0). rewrite E0. cbn [bind]. destruct (start_ok di s0 n1 E0) as (I0 & _).
  destruct (gens_nat_total (hc_gen expf m fit ds mt g1 g2 ngen drs) (fun k s => hc_inv k s /\ Forall (fun p => length (q_fri p) = dim) (hc_sw s)) ngen 0 s0) as (st & -> & (I & _)); auto.
  - intros k s Hk (I & Fr). assert (exists s', hc_gen expf m fit ds mt g1 g2 ngen drs k s = Some s' /\ Forall (fun p => length (q_fri p) = dim) (hc_sw s')) as (s' & Es & Fs).
    { destruct I as (A & B & C1 & C2 & D & E & F & G & H1 & _). unfold hc_gen. cbv zeta.
      destruct (traverse_total (hc_move expf ds mt g1 ngen k (fst (hc_g s)) (drs k)) (fun p => part_ok p /\ length (q_fri p) = dim) (hc_sw s) 0) as (sw1 & E1).
      { intros i p ((P1 & P2 & P3) & P4). unfold hc_move. cbv zeta.
        assert (Lg : length (fst (hc_g s)) = dim). { apply feasible_length. destruct G as (G & _). apply in_app_or in G. rewrite Forall_forall in C2, D. destruct G; auto. }
        match goal with |- context [traverse ?f 0 ds] => destruct (traverse_total_len f ds 0) as (v & Ev) end.
        { intros j d Hj. simpl. destruct (nth_len (q_x p) j) as (a1 & ->); [rewrite (feasible_length _ _ P1); auto|]. cbn [bind].
          destruct (nth_len (q_v p) j) as (a2 & ->); [lia|]. cbn [bind]. destruct (nth_len (q_fri p) j) as (a3 & ->); [lia|]. cbn [bind].
          destruct (nth_len (fst (hc_g s)) j) as (a4 & ->); [lia|]. cbn [bind]. eauto. }
        rewrite Ev. cbn [bind]. apply len_traverse in Ev.
        destruct (settle_total expf ds W (anneal1 k ngen) mt (cd_vd (drs k i)) (map2 Qplus (q_x p) v)) as (x & -> & _); auto.
        { rewrite map2_len; [apply feasible_length; auto|rewrite (feasible_length _ _ P1); auto]. }
        cbn [bind]. eauto. }
      { apply Forall_forall. intros p Hp. rewrite Forall_forall in A, Fr. auto. }
      rewrite E1. cbn [bind]. pose proof (len_traverse _ _ _ _ E1) as L1.
      assert (R1 : Forall (fun p' => part_ok p' /\ length (q_fri p') = dim) sw1).
      { assert (K : Forall2 (fun (p p' : part) => part_ok p' /\ length (q_fri p') = dim) (hc_sw s) sw1).
        { eapply traverse_Forall2; [|exact E1]. intros j p p' Hp Hm. rewrite Forall_forall in A, Fr. split; [eapply move_ok; eauto|].
          unfold hc_move in Hm. cbv zeta in Hm. apply bind_Some in Hm. destruct Hm as (? & _ & Hm). apply bind_Some in Hm. destruct Hm as (? & _ & Hm). inversion Hm; subst. cbn. auto. }
        clear - K. induction K; constructor; auto. }
      destruct (update_total (n - 1) true (fun i => cd_f (drs k i)) (map (hc_best1 m fit ds) sw1)) as (sw3 & Eu); auto; try lia.
      { rewrite map_length. lia. }
      { apply Forall_forall. intros p Hp. apply in_map_iff in Hp. destruct Hp as (q & <- & Hq). rewrite Forall_forall in R1. destruct (R1 q Hq) as ((Q1 & Q2 & Q3) & _).
        unfold hc_best1. cbv zeta. destruct (Qltb _ _); unfold part_ok; cbn; auto. }
      rewrite Eu. cbn [bind].
      destruct (track_Some (combine (map q_x sw1) (map (pt_score m fit ds) (map q_x sw1))) (hc_best s)) as ([bx bf] & ->).
      { right. intros Z. apply (f_equal (@length _)) in Z. rewrite combine_length, !map_length in Z. simpl in Z. lia. }
      cbn [bind]. destruct (argmin_Some (map (pt_score m fit ds) (map q_x sw1))) as (ix & v & ->). { intros Z. apply map_eq_nil, map_eq_nil in Z. subst. simpl in L1. lia. }
      cbn [bind]. eexists. split; [reflexivity|]. cbn [hc_sw]. eapply update_fri; eauto. right.
      apply Forall_forall. intros p Hp. apply in_map_iff in Hp. destruct Hp as (q & <- & Hq). rewrite Forall_forall in R1. destruct (R1 q Hq) as (_ & Q3).
      unfold hc_best1. cbv zeta. destruct (Qltb _ _); cbn; auto. }
    exists s'. split; auto. split; auto. eapply hc_step; eauto.
  - cbn [bind]. destruct I as (_ & _ & _ & _ & _ & _ & _ & _ & _ & _ & _ & _ & _ & _ & H7 & _). destruct (H7 ltac:(simpl; lia)) as (x & f & -> & _). cbn [bind]. eauto.
Qed.
End P.

(** Learning probabilities. *)
Lemma pc_spec expf g1 g2 : 2 <= g1 + g2 -> (forall a b, (a < b)%Q -> (expf a < expf b)%Q) -> (forall a b, (a == b)%Q -> (expf a == expf b)%Q) ->
  (hc_pc expf g1 g2 0 == 0)%Q /\ (hc_pc expf g1 g2 (g1 + g2 - 1) == 1#4)%Q /\
  forall i j, i <= j -> (hc_pc expf g1 g2 i <= hc_pc expf g1 g2 j)%Q.
Proof.
  intros n2 Hm He. set (n := g1 + g2) in *.
  assert (P : (0 < qnat (n - 1))%Q) by (unfold qnat; change 0%Q with (inject_Z 0); rewrite <- Zlt_Qlt; lia).
  assert (D : (0 < expf (1 * 10) - expf 0)%Q) by (assert (expf 0 < expf (1 * 10))%Q by (apply Hm; reflexivity); lra).
  unfold hc_pc. fold n. split; [|split].
  - assert (E : (expf (qnat 0 / qnat (n - 1) * 10) == expf 0)%Q) by (apply He; unfold qnat at 1; simpl; field; lra). rewrite E. field. lra.
  - assert (E : (expf (qnat (n - 1) / qnat (n - 1) * 10) == expf (1 * 10))%Q) by (apply He; field; lra). rewrite E. field. lra.
  - intros i j Hij.
    assert (E : (expf (qnat i / qnat (n - 1) * 10) <= expf (qnat j / qnat (n - 1) * 10))%Q).
    { assert (L : (qnat i <= qnat j)%Q) by (unfold qnat; rewrite <- Zle_Qle; lia).
      assert (L2 : (qnat i / qnat (n - 1) * 10 <= qnat j / qnat (n - 1) * 10)%Q).
      { apply Qmult_le_compat_r; [|discriminate]. unfold Qdiv. apply Qmult_le_compat_r; auto. apply Qlt_le_weak, Qinv_lt_0_compat; auto. }
      apply Qle_lteq in L2. destruct L2 as [L2|L2]; [apply Qlt_le_weak; auto|rewrite (He _ _ L2); lra]. }
    revert E. generalize (expf (qnat i / qnat (n - 1) * 10)%Q) (expf (qnat j / qnat (n - 1) * 10)%Q). intros a b E.
    apply Qplus_le_compat; [apply Qle_refl|]. unfold Qdiv. apply Qmult_le_compat_r; [|apply Qlt_le_weak, Qinv_lt_0_compat; auto].
    rewrite !(Qmult_comm (1#4)). apply Qmult_le_compat_r; [|discriminate]. apply Qplus_le_compat; [auto|apply Qle_refl].
Qed.
