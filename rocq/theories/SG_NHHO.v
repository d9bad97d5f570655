(** Proofs about NHHO. *)
From Coq Require Import List Arith ZArith QArith Qabs Qround Bool Lia Lqa Permutation.
From Verif Require Import Base BaseFacts Space_Model Space_Spec Space_Facts Opt_Model Opt_Spec Opt_Facts Opt_Facts2
  Pop_Model Pop_Spec Pop_Proofs Swarm_Model Swarm_Proofs HHO_Model HHO_Proofs P2_Model SG_Model SG_Spec SG_Latin SG_GA SG_NGA.
Import ListNotations.
Open Scope nat_scope.

Lemma split3_ok {A} (l a b c : list A) : split3 l = (a, b, c) ->
  l = a ++ b ++ c /\ length b <= length a <= S (length c) /\ length c <= length b /\ (3 <= length l -> 1 <= length c).
Proof.
  unfold split3. cbv zeta. intros H. apply pair_equal_spec in H. destruct H as (H & Hc). apply pair_equal_spec in H. destruct H as (Ha & Hb).
  set (q := length l / 3) in *. set (r := length l mod 3) in *.
  assert (E : length l = 3 * q + r) by apply Nat.div_mod_eq. assert (Hr : r < 3) by (apply Nat.mod_upper_bound; lia).
  set (na := if 1 <=? r then S q else q) in *. set (nb := if 2 <=? r then S q else q) in *.
  split. { rewrite <- Ha, <- Hb, <- Hc. rewrite !firstn_skipn. reflexivity. }
  rewrite <- Hc, <- Ha, <- Hb. rewrite !skipn_length, !firstn_length, skipn_length.
  unfold na, nb. destruct (Nat.leb_spec 1 r); destruct (Nat.leb_spec 2 r); lia.
Qed.

Lemma track_in pop : forall cur x f, track cur pop = Some (x, f) -> cur = Some (x, f) \/ In (x, f) pop.
Proof.
  unfold track. induction pop as [|p pop IH]; intros cur x f H; simpl in H; [auto|].
  apply IH in H. destruct H as [H|H]; [|right; right; auto].
  unfold track1 in H. destruct cur as [[cx cf]|]; [|inversion H; subst; right; left; auto].
  destruct p as [px pf]. cbn [snd fst] in H. destruct (Qltb _ _); [inversion H; subst; right; left; auto|left; auto].
Qed.

Section S.
Context (net : Type) (train : nat -> nat -> list (list Q * Q) -> net) (predict : net -> list Q -> Q).
Context (expf : Q -> Q) (m : mode) (fit : list Q -> Q) (ds : list dimn) (mt : imethod) (W : wf_dims ds) (DO : discrete_ok mt ds) (n : nat).

Lemma hawk_count E1 a rab fits dr k s s' : hho_hawk expf Mmin fit ds mt n E1 a rab fits dr k s = Some s' -> length (snd s') <= length (snd s) + 2.
Proof.
  destruct s as [ps dv]. unfold hho_hawk. cbv zeta. intros H. apply bind_Some in H. destruct H as (x & _ & H). cbn [snd].
  destruct (Qle_bool 1 _). { apply bind_Some in H. destruct H as (v & _ & H). inversion H. simpl. lia. }
  destruct (Qle_bool (1#2) _). { apply bind_Some in H. destruct H as (v & _ & H). inversion H. simpl. lia. }
  apply bind_Some in H. destruct H as (f & _ & H). apply bind_Some in H. destruct H as ([v new] & E & H). inversion H; subst; clear H. cbn [snd]. rewrite app_length.
  unfold hho_dive in E. cbv zeta in E. apply bind_Some in E. destruct E as (u & _ & E). apply bind_Some in E. destruct E as (y & _ & E).
  destruct (Qltb _ _); [inversion E; simpl; lia|]. apply bind_Some in E. destruct E as (u' & _ & E). apply bind_Some in E. destruct E as (z & _ & E). inversion E. simpl. lia.
Qed.

Lemma nn_fit_some ts c k data w : nn_fit net train ts c k data = Some w -> w = train c k data /\ nn_enough ts (length data) = true.
Proof. unfold nn_fit. destruct (nn_enough _ _); [|discriminate]. intros H. inversion H; auto. Qed.
Lemma nn_fit_ok ts c k data : nn_enough ts (length data) = true -> nn_fit net train ts c k data = Some (train c k data).
Proof. unfold nn_fit. intros ->. auto. Qed.
Lemma nn_enough_S ts k : nn_enough ts k = true -> nn_enough ts (S k) = true.
Proof.
  unfold nn_enough. intros H. apply andb_true_iff in H. destruct H as (H & H2). rewrite H. cbn [andb]. apply andb_true_iff in H. destruct H as (A & B). qprop.
  apply Nat.ltb_lt in H2. apply Nat.ltb_lt. unfold nn_test in *. rewrite qnat_S.
  assert (Qceiling (ts * (qnat k + 1)) <= Qceiling (ts * qnat k) + 1)%Z; [|lia].
  rewrite <- (Qceiling_Z (Qceiling (ts * qnat k) + 1)). apply Qceiling_resp_le. rewrite inject_Z_plus. change (inject_Z 1) with 1%Q. pose proof (Qle_ceiling (ts * qnat k)).
  assert (ts * (qnat k + 1) == ts * qnat k + ts)%Q as -> by ring. lra.
Qed.
Lemma nn_enough_le ts a b : a <= b -> nn_enough ts a = true -> nn_enough ts b = true.
Proof. induction 1; auto using nn_enough_S. Qed.

Definition nh_ok (data : tset) (t : nat) (s : nh_step) (x : list Q) (y : Q) : Prop :=
  exists p0 p1 p2, hs_parts s = (p0, p1, p2) /\
    nhho_generation m data (fun k b => predict (train 0 k b)) (fun k b => predict (train (t + 1) k b)) (hs_hawks s) p0 p1 p2 (hs_preds s) x y.

Definition nh_inv (data : tset) (samples init : list (list Q)) (k : nat) (st : nh_state) : Prop :=
  length (nh_pos st) = n /\ Forall (feasible ds) (nh_pos st) /\ (forall x f, nh_rab st = Some (x, f) -> feasible ds x) /\
  length (nh_x st) = k /\ length (nh_y st) = k /\ length (nh_trace st) = k /\
  (forall t s, nth_error (nh_trace st) t = Some s -> length (hs_hawks s) = n /\ Forall (feasible ds) (hs_hawks s) /\
     exists x y, nth_error (nh_x st) t = Some x /\ nth_error (nh_y st) t = Some y /\ nh_ok data t s x y) /\
  (forall s, nth_error (nh_trace st) 0 = Some s -> hs_hawks s = init) /\ (k = 0 -> nh_pos st = init) /\
  exists dives, nh_evals st = samples ++ dives /\ Forall (feasible ds) dives /\ length dives <= 2 * n * k.

Lemma nh_step_ok data samples init ts ngen drs p0 p1 p2 k st st' : split3 data = (p0, p1, p2) -> nh_inv data samples init k st ->
  nh_gen net train predict expf m fit ds mt n ts ngen (p0, p1, p2) (train 0 0 p0, train 0 1 p1, train 0 2 p2) drs k st = Some st' -> nh_inv data samples init (S k) st'.
Proof.
  intros Es (A & B & C & Lx & Ly & Lt & T & T0 & K0 & dives & D1 & D2 & D3) H. unfold nh_gen in H. cbv zeta in H.
  apply split3_ok in Es. destruct Es as (S1 & S2 & S3 & _).
  apply bind_Some in H. destruct H as ([x0 y0] & E0 & H). apply bind_Some in H. destruct H as (n0 & N0 & H). apply bind_Some in H. destruct H as ([x1 y1] & E1 & H). apply bind_Some in H. destruct H as (n1 & N1 & H).
  apply bind_Some in H. destruct H as ([x2 y2] & E2 & H). apply bind_Some in H. destruct H as (n2 & N2 & H).
  apply nn_fit_some in N0, N1, N2. destruct N0 as (-> & _). destruct N1 as (-> & _). destruct N2 as (-> & _).
  set (score := consensus net predict (train (k + 1) 0 (p0 ++ [(x0, y0)])) (train (k + 1) 1 (p1 ++ [(x1, y1)])) (train (k + 1) 2 (p2 ++ [(x2, y2)]))) in *.
  apply bind_Some in H. destruct H as ([rx rf] & Er & H). apply bind_Some in H. destruct H as ([ix lo] & Ea & H). apply bind_Some in H. destruct H as (best & Eb & H).
  apply bind_Some in H. destruct H as ([ps dv] & El & H). apply bind_Some in H. destruct H as (pos & Ep & H). inversion H; subst st'; clear H.
  assert (Frx : feasible ds rx).
  { apply track_in in Er. destruct Er as [Er|Er]; [eauto|]. apply in_combine_l in Er. rewrite Forall_forall in B. auto. }
  assert (Frab : forall x f, track (nh_rab st) (combine (nh_pos st) (map (as_min m) (map score (nh_pos st)))) = Some (x, f) -> feasible ds x).
  { intros x f Hx. rewrite Er in Hx. inversion Hx; subst. auto. }
  assert (Cn : length dv <= 2 * n).
  { apply (gens_nat _ (fun k s => length (snd s) <= 2 * k)) in El; [exact El| |simpl; lia]. intros q s s' Hs Hq. apply hawk_count in Hq. lia. }
  apply (gens_nat _ (loop_inv Mmin fit ds n (map score (nh_pos st)))) with (1 := fun k s s' => hawk_step expf Mmin fit ds mt W DO n _ _ _ _ _ k s s') in El.
  2:{ unfold loop_inv. cbn [fst snd]. split; auto. split; [eapply Forall_impl; [|exact B]; intros; apply feasible_length; auto|]. split; [auto|]. simpl; tauto. }
  destruct El as (L1 & L2 & L3 & _). cbn [fst snd] in *.
  destruct (rows_pointwise (fun i x => settle expf (anneal1 k ngen) mt (h_vd (drs k i)) ds x) n ps pos Ep) as (Lp & Pw).
  assert (Fp : Forall (feasible ds) pos).
  { apply Forall_forall. intros y Hy. apply In_nth_error in Hy. destruct Hy as (i & Hi).
    assert (Li : i < length ps) by (rewrite <- Lp; apply nth_error_Some; congruence).
    destruct (nth_error ps i) as [x|] eqn:Ex; [|apply nth_error_None in Ex; lia].
    destruct (Pw i x Ex ltac:(lia)) as (y' & Es & Ey). rewrite Hi in Ey. inversion Ey; subst y'.
    eapply settle_ok; eauto. rewrite Forall_forall in L2. apply L2. eapply nth_error_In; eauto. }
  apply argmin_spec in Ea. destruct Ea as (A1 & A2 & _). rewrite nth_error_map, Eb in A1. cbn [option_map] in A1. inversion A1; subst lo; clear A1.
  unfold nh_inv. cbn [nh_pos nh_rab nh_x nh_y nh_evals nh_trace].
  split; [lia|]. split; [exact Fp|]. split; [exact Frab|]. do 3 (split; [rewrite app_length; simpl; lia|]). split; [|split; [|split; [lia|]]].
  - intros t s Hs. apply snoc_nth in Hs. destruct Hs as [(Hl & Hs)|(Hl & ->)].
    + destruct (T t s Hs) as (T1 & T2 & x & y & X1 & X2 & X3). split; auto. split; auto. exists x, y. rewrite !snoc_old by lia. auto.
    + cbn [hs_hawks]. split; auto. split; auto. exists best, (as_min m (score best)).
      split; [replace t with (length (nh_x st)) by lia; apply snoc_last|]. split; [replace t with (length (nh_y st)) by lia; apply snoc_last|].
      assert (t = k) as -> by lia. exists (p0 ++ [(x0, y0)]), (p1 ++ [(x1, y1)]), (p2 ++ [(x2, y2)]). split; [reflexivity|]. unfold nhho_generation. cbv zeta. cbn [hs_hawks hs_preds].
      split. { exists p0, p1, p2, x0, y0, x1, y1, x2, y2. split; [exact S1|]. split; [exact S2|]. split; [exact S3|]. do 3 (split; [reflexivity|]).
        split; [apply pseudo_ok; exact E0|]. split; [apply pseudo_ok; exact E1|apply pseudo_ok; exact E2]. }
      split; [reflexivity|]. split; [eapply nth_error_In; eauto|]. split; [|reflexivity].
      intros z Hz. apply A2. apply (in_map score). auto.
  - intros s Hs. apply snoc_nth in Hs. destruct Hs as [(Hl & Hs)|(Hl & ->)]; auto. cbn [hs_hawks]. apply K0. lia.
  - exists (dives ++ dv). split; [rewrite D1; apply app_assoc_reverse|]. split; [apply Forall_app; auto|]. rewrite app_length. lia.
Qed.

Lemma nh_step_total data samples init ts ngen drs p0 p1 p2 k st : 1 <= n -> nn_enough ts (length p0) = true -> nn_enough ts (length p1) = true -> nn_enough ts (length p2) = true ->
  nh_inv data samples init k st ->
  exists st', nh_gen net train predict expf m fit ds mt n ts ngen (p0, p1, p2) (train 0 0 p0, train 0 1 p1, train 0 2 p2) drs k st = Some st'.
Proof.
  intros Hn Q0 Q1 Q2 (A & B & C & _). unfold nh_gen. cbv zeta.
  assert (Fit : forall i p e, nn_enough ts (length p) = true -> nn_fit net train ts (k + 1) i (p ++ [e]) = Some (train (k + 1) i (p ++ [e]))).
  { intros i p e Hp. apply nn_fit_ok. rewrite app_length. cbn [length]. rewrite Nat.add_1_r. apply nn_enough_S. auto. }
  assert (Ne : nh_pos st <> []) by (intros Z; rewrite Z in A; simpl in A; lia).
  destruct (pseudo_total net predict (train 0 1 p1) (train 0 2 p2) (nh_pos st) Ne) as (e0 & ->). cbn [bind]. rewrite Fit by auto. cbn [bind].
  destruct (pseudo_total net predict (train 0 2 p2) (train 0 0 p0) (nh_pos st) Ne) as (e1 & ->). cbn [bind]. rewrite Fit by auto. cbn [bind].
  destruct (pseudo_total net predict (train 0 0 p0) (train 0 1 p1) (nh_pos st) Ne) as (e2 & ->). cbn [bind]. rewrite Fit by auto. cbn [bind].
  set (score := consensus net predict (train (k + 1) 0 (p0 ++ [e0])) (train (k + 1) 1 (p1 ++ [e1])) (train (k + 1) 2 (p2 ++ [e2]))).
  destruct (track_Some (combine (nh_pos st) (map (as_min m) (map score (nh_pos st)))) (nh_rab st)) as ([rx rf] & Er).
  { right. intros Z. apply (f_equal (@length _)) in Z. rewrite combine_length, !map_length in Z. simpl in Z. lia. }
  rewrite Er. cbn [bind].
  assert (Frx : feasible ds rx). { apply track_in in Er. destruct Er as [Er|Er]; [eauto|]. apply in_combine_l in Er. rewrite Forall_forall in B. auto. }
  destruct (argmin_Some (map score (nh_pos st))) as (i & v & Ea). { intros Z. apply map_eq_nil in Z. auto. }
  rewrite Ea. cbn [bind]. apply argmin_spec in Ea. destruct Ea as (A1 & _). rewrite nth_error_map in A1. destruct (nth_error (nh_pos st) i) as [best|]; [|discriminate]. cbn [bind].
  destruct (gens_nat_total (hho_hawk expf Mmin fit ds mt n (2 * (1 - qnat k / qnat ngen)) (anneal1 k ngen) rx (map score (nh_pos st)) (drs k)) (loop_inv Mmin fit ds n (map score (nh_pos st))) n 0 (nh_pos st, [])) as ([ps dv] & -> & Il).
  - intros j t Hj It. match goal with |- context [hho_hawk _ _ _ _ _ _ ?e ?a ?r ?f ?d _ _] => destruct (hawk_total expf Mmin fit ds mt W DO n e a r f d j t) as (t' & Et) end; auto; try lia.
    + rewrite map_length; auto.
    + apply feasible_length; auto.
    + exists t'. split; auto. eapply hawk_step; eauto.
  - unfold loop_inv. cbn [fst snd]. split; auto. split; [eapply Forall_impl; [|exact B]; intros; apply feasible_length; auto|]. split; [auto|]. simpl; tauto.
  - cbn [bind]. destruct Il as (L1 & L2 & _). cbn [fst] in *. destruct (rows_settle_total expf ds mt W DO n (anneal1 k ngen) (drs k) ps L1 L2) as (pos & ->). cbn [bind]. eauto.
Qed.

Section Run.
Context (ts : Q) (warm : option nat) (ngen : nat) (x0 : option (list (list Q))) (lw lp : lh_draw) (drs : nat -> nat -> hdraw).
Context (Uw : forall i j, (0 <= lh_u lw i j <= 1)%Q) (Up : forall i j, (0 <= lh_u lp i j <= 1)%Q) (X0 : good_hawks ds n x0).
Local Notation run := (nh_evolute net train predict expf m fit ds mt n ts warm ngen x0 lw lp drs).
Local Notation W0 := (match warm with Some w => w | None => n end).

Lemma init_ok init : match x0 with Some (x :: l) => if length (x :: l) =? n then Some (x :: l) else None | _ => hawk_sample n lp ds end = Some init ->
  length init = n /\ Forall (feasible ds) init.
Proof.
  destruct x0 as [[|x l]|]; try (apply hawk_sample_ok; auto; fail). intros H. destruct (length (x :: l) =? n); [|discriminate]. inversion H; subst. exact X0.
Qed.

Lemma start samples init : Forall (feasible ds) samples -> length init = n -> Forall (feasible ds) init ->
  nh_inv (map (fun x => (x, fit (pt_arg ds x))) samples) samples init 0 (NhSt init None [] [] (map (pt_arg ds) samples) []).
Proof.
  intros Fs Li Fi. unfold nh_inv. cbn [nh_pos nh_rab nh_x nh_y nh_evals nh_trace]. split; auto. split; auto. split; [discriminate|]. do 3 (split; [reflexivity|]).
  split; [intros [|t]; discriminate|]. split; [discriminate|]. split; [auto|]. exists []. rewrite (map_arg ds W _ Fs). rewrite app_nil_r. split; auto. split; auto. simpl; lia.
Qed.

Lemma nh_report r : run = Some r ->
  length (hx r) = ngen /\ length (hy r) = ngen /\ length (h_trace r) = ngen /\ h_warm r = W0 /\
  exists samples dives, h_evals r = samples ++ dives /\ hawk_sample W0 lw ds = Some samples /\ length samples = W0 /\ length dives <= 2 * n * ngen /\
  Forall (feasible ds) (h_evals r) /\
  (forall t s, nth_error (h_trace r) t = Some s -> length (hs_hawks s) = n /\ Forall (feasible ds) (hs_hawks s) /\
     exists x y, nth_error (hx r) t = Some x /\ nth_error (hy r) t = Some y /\ nh_ok (map (fun x => (x, fit x)) samples) t s x y) /\
  (forall s x l, x0 = Some (x :: l) -> nth_error (h_trace r) 0 = Some s -> hs_hawks s = x :: l).
Proof.
  intros H. unfold nh_evolute in H. apply bind_Some in H. destruct H as (samples & Es & H). cbv zeta in H.
  destruct (split3 (map (fun x => (x, fit (pt_arg ds x))) samples)) as [[p0 p1] p2] eqn:E3.
  apply bind_Some in H. destruct H as (b0 & B0 & H). apply bind_Some in H. destruct H as (b1 & B1 & H). apply bind_Some in H. destruct H as (b2 & B2 & H).
  apply nn_fit_some in B0, B1, B2. destruct B0 as (-> & _). destruct B1 as (-> & _). destruct B2 as (-> & _).
  apply bind_Some in H. destruct H as (init & Ei & H). apply bind_Some in H. destruct H as (st & Eg & H). inversion H; subst r; clear H.
  destruct (hawk_sample_ok _ _ _ _ W Uw Es) as (Ls & Fs). destruct (init_ok init Ei) as (Li & Fi).
  pose proof (start samples init Fs Li Fi) as I0. revert Eg I0 E3. set (data := map (fun x => (x, fit (pt_arg ds x))) samples). intros Eg I0 E3.
  assert (Ed : data = map (fun x => (x, fit x)) samples). { unfold data. apply map_ext_in. intros z Hz. rewrite Forall_forall in Fs. rewrite (pt_arg_feasible ds W z); auto. }
  apply (gens_nat _ (nh_inv data samples init)) in Eg; [|intros k s s'; apply nh_step_ok; exact E3|exact I0]. simpl in Eg.
  destruct Eg as (A & B & C & Lx & Ly & Lt & T & T0 & _ & dives & D1 & D2 & D3). cbn [hx hy h_trace h_warm h_evals].
  split; auto. split; auto. split; auto. split; auto. exists samples, dives. split; auto. split; auto. split; auto. split; auto.
  split; [rewrite D1; apply Forall_app; auto|]. rewrite Ed in T. split; auto. intros s x l E Hs. rewrite (T0 s Hs). rewrite E in Ei. destruct (length (x :: l) =? n); [|discriminate]. inversion Ei. auto.
Qed.

Lemma third_size {A} (l a b c : list A) : split3 l = (a, b, c) -> length c = length l / 3 /\ length l / 3 <= length b /\ length l / 3 <= length a.
Proof.
  intros H. pose proof (split3_ok _ _ _ _ H) as (E & L1 & L2 & _). apply (f_equal (@length _)) in E. rewrite !app_length in E.
  assert (length c = length l / 3); [|lia]. apply Nat.div_unique with (r := length l - 3 * length c); lia.
Qed.

Lemma nh_total : 1 <= n -> nn_enough ts (W0 / 3) = true -> exists r, run = Some r.
Proof.
  intros Hn HW. unfold nh_evolute.
  assert (HW0 : 1 <= W0). { destruct W0; [|lia]. unfold nn_enough in HW. simpl in HW. rewrite andb_false_r in HW. discriminate. }
  destruct (hawk_sample_total W0 lw ds W HW0) as (samples & Es). rewrite Es. cbn [bind]. cbv zeta.
  destruct (hawk_sample_ok _ _ _ _ W Uw Es) as (Ls & Fs).
  set (data := map (fun x => (x, fit (pt_arg ds x))) samples). assert (Ld : length data = W0) by (unfold data; rewrite map_length; auto).
  destruct (split3 data) as [[p0 p1] p2] eqn:E3. destruct (third_size _ _ _ _ E3) as (S2 & S1 & S0). rewrite Ld in *.
  assert (Q0 : nn_enough ts (length p0) = true) by (apply (nn_enough_le ts _ _ S0 HW)).
  assert (Q1 : nn_enough ts (length p1) = true) by (apply (nn_enough_le ts _ _ S1 HW)).
  assert (Q2 : nn_enough ts (length p2) = true) by (rewrite S2; auto).
  rewrite !nn_fit_ok by auto. cbn [bind].
  assert (exists init, match x0 with Some (x :: l) => if length (x :: l) =? n then Some (x :: l) else None | _ => hawk_sample n lp ds end = Some init) as (init & Ei).
  { destruct x0 as [[|x l]|]; try (apply hawk_sample_total; auto; fail). destruct X0 as (XL & _). apply Nat.eqb_eq in XL. rewrite XL. eauto. }
  rewrite Ei. cbn [bind]. destruct (init_ok init Ei) as (Li & Fi).
  destruct (gens_nat_total (nh_gen net train predict expf m fit ds mt n ts ngen (p0, p1, p2) (train 0 0 p0, train 0 1 p1, train 0 2 p2) drs) (nh_inv data samples init) ngen 0 (NhSt init None [] [] (map (pt_arg ds) samples) [])) as (st & -> & _).
  - intros k s Hk I. destruct (nh_step_total data samples init ts ngen drs p0 p1 p2 k s Hn Q0 Q1 Q2 I) as (s' & Es'). exists s'. split; auto. eapply nh_step_ok; eauto.
  - apply start; auto.
  - cbn [bind]. eauto.
Qed.
Lemma nh_few : nn_enough ts (W0 / 3) = false -> run = None.
Proof.
  intros HW. unfold nh_evolute. destruct (hawk_sample W0 lw ds) as [samples|] eqn:Es; [|reflexivity]. cbn [bind]. cbv zeta.
  destruct (hawk_sample_ok _ _ _ _ W Uw Es) as (Ls & Fs).
  set (data := map (fun x => (x, fit (pt_arg ds x))) samples). assert (Ld : length data = W0) by (unfold data; rewrite map_length; auto).
  destruct (split3 data) as [[p0 p1] p2] eqn:E3. destruct (third_size _ _ _ _ E3) as (S2 & S1 & S0). rewrite Ld in *.
  destruct (nn_fit _ _ _ _ _ p0); [|reflexivity]. cbn [bind]. destruct (nn_fit _ _ _ _ _ p1); [|reflexivity]. cbn [bind].
  unfold nn_fit. rewrite S2, HW. reflexivity.
Qed.
End Run.
End S.

Lemma default_enough k : nn_enough (2#10) k = true <-> 2 <= k.
Proof.
  unfold nn_enough. cbn [Qltb]. replace (Qltb 0 (2 # 10)) with true by reflexivity. replace (Qltb (2 # 10) 1) with true by reflexivity. cbn [andb]. rewrite Nat.ltb_lt. unfold nn_test.
  split; intros H.
  - destruct k as [|[|k]]; [|vm_compute in H; lia|lia]. lia.
  - assert (Qceiling ((2#10) * qnat k) <= Z.of_nat k - 1)%Z; [|lia]. rewrite <- (Qceiling_Z (Z.of_nat k - 1)). apply Qceiling_resp_le.
    assert (E : (inject_Z (Z.of_nat k - 1) == qnat k - 1)%Q) by (unfold qnat; rewrite <- Z.add_opp_r, inject_Z_plus; reflexivity). rewrite E.
    pose proof (qnat_le 2 k H). change (qnat 2) with 2%Q in *. lra.
Qed.
