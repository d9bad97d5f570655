(** Proofs about the bat algorithm. *)
From Coq Require Import List Arith ZArith QArith Bool Lia Lqa.
From Verif Require Import Base BaseFacts Space_Model Space_Spec Space_Facts Opt_Model Opt_Spec Opt_Facts Opt_Facts2
  Pop_Model Pop_Spec Pop_Proofs Swarm_Model Swarm_Proofs CS_Proofs BAT_Model.
Import ListNotations.
Open Scope nat_scope.

Section P.
Context (expf : Q -> Q) (m : mode) (fit : list Q -> Q) (ds : list dimn) (mt : imethod).
Context (W : wf_dims ds) (DO : discrete_ok mt ds) (n : nat) (p : bat_par).

Let g := fun x => as_min m (fit x).

Lemma row1_ok ngen l a best dr i ps x y : bat_row1 expf ds mt n p ngen l a best dr i ps x = Some y -> feasible ds y.
Proof.
  unfold bat_row1. cbv zeta. intros H. apply bind_Some in H. destruct H as (x1 & _ & H).
  destruct (b1_idx (dr i)) as [[[d0 d1] d2] d3]. apply bind_Some in H. destruct H as (bt & _ & H).
  destruct bt as [|i0 [|i1 bt]]; try discriminate.
  apply bind_Some in H. destruct H as (r0 & _ & H). apply bind_Some in H. destruct H as (r1 & _ & H).
  apply bind_Some in H. destruct H as (v & Ev & H). apply coords_length in Ev. eapply settle_ok; eauto.
Qed.
Lemma row2_ok a s go best dr i ps x y : feasible ds x -> bat_row2 expf ds mt a s go best dr i ps x = Some y -> feasible ds y.
Proof.
  unfold bat_row2. cbv zeta. intros F H. apply bind_Some in H. destruct H as (v & Ev & H).
  assert (length v = length ds). { destruct (go _); [apply coords_length in Ev; auto|]. inversion Ev; subst. apply feasible_length; auto. }
  eapply settle_ok; eauto.
Qed.

(** fbest with xbest, relative to the points seen after the initial population. *)
Definition held (x : list Q) (f : option Q) (seen : list (list Q)) : Prop :=
  match f with None => seen = [] | Some y => min_of g seen x y end.

Lemma eval_ok pos x f seen fits f1 x1 b1 : Forall (feasible ds) pos -> held x f seen ->
  bat_eval m fit ds pos x f = Some (fits, f1, x1, b1) ->
  fits = map g pos /\ min_of g (seen ++ pos) x1 b1 /\ (exists z, min_of g pos z f1) /\ (b1 <= f1)%Q /\ (In x1 pos \/ x1 = x).
Proof.
  intros F Hh H. unfold bat_eval in H. cbv zeta in H. rewrite (map_score m fit ds W pos F) in H.
  change (map (fun x => as_min m (fit x)) pos) with (map g pos) in H.
  apply bind_Some in H. destruct H as ([i v] & Ea & H). apply bind_Some in H. destruct H as (z & Ez & H).
  apply min_of_argmin in Ea. destruct Ea as (z' & Ez' & M). rewrite Ez in Ez'. inversion Ez'; subst z'; clear Ez'.
  assert (Hin : In z pos) by (eapply nth_error_In; eauto).
  destruct f as [f0|]; simpl in Hh.
  - destruct (min_of_app g seen pos x f0 z v Hh M) as (A & B).
    destruct (Qle_bool v f0) eqn:E; inversion H; subst; qprop; repeat split; eauto; try lra.
    + apply B; auto.
    + apply B; auto.
    + apply B; auto.
    + apply A; lra.
    + apply A; lra.
    + apply A; lra.
  - subst seen. inversion H; subst. repeat split; eauto; try apply M. lra.
Qed.

Definition bat_inv (k : nat) (st : bat_state) : Prop :=
  Forall (feasible ds) (bs_pos st) /\ length (bs_pos st) = n /\ feasible ds (bs_x st) /\
  held (bs_x st) (bs_f st) (bs_seen st) /\ Forall (feasible ds) (bs_seen st) /\ length (bs_seen st) = 3 * n * k /\
  (k <> 0 -> bs_f st <> None /\ bs_fits st = map g (bs_pos st) /\ exists early, bs_seen st = early ++ bs_pos st) /\
  length (bs_local st) = k /\ length (bs_global st) = k /\
  global_exact m fit (3 * n) 1 (bs_seen st) (bs_global st) /\
  local_exact m fit (3 * n) 1 (bs_seen st) (bs_local st) /\
  (k <> 0 -> forall y, bs_f st = Some y -> nth_error (bs_global st) (k - 1) = Some (as_min m y)).

Lemma min3 a b c x y z u v w : min_of g a x u -> min_of g b y v -> min_of g c z w ->
  exists t, min_of g (a ++ b ++ c) t (qmin2 (qmin2 u v) w).
Proof.
  intros A B C. destruct (min_of_app g a b x u y v A B) as (P1 & P2).
  assert (exists t, min_of g (a ++ b) t (qmin2 u v)) as (t & T).
  { unfold qmin2. destruct (Qle_bool u v) eqn:E; qprop; [exists x; auto|exists y; apply P2; lra]. }
  destruct (min_of_app g (a ++ b) c t _ z w T C) as (R1 & R2). rewrite app_assoc.
  unfold qmin2 at 1. destruct (Qle_bool (qmin2 u v) w) eqn:E; qprop; [exists t; auto|exists z; apply R2; lra].
Qed.

Lemma bat_step ngen d1 d2 d3 k st st' : bat_inv k st -> bat_gen expf m fit ds mt n p ngen d1 d2 d3 k st = Some st' -> bat_inv (S k) st'.
Proof.
  intros (A & B & C & D & E & F & G & H1 & H2 & H3 & H4 & H5) H. unfold bat_gen in H. cbv zeta in H.
  apply bind_Some in H. destruct H as (pos1 & E1 & H).
  apply (rows_loop_inv ds) in E1; auto; [|intros; eapply row1_ok; eauto]. destruct E1 as (F1 & L1).
  apply bind_Some in H. destruct H as ([[[fi1 f1] x1] b1] & V1 & H).
  destruct (eval_ok _ _ _ _ _ _ _ _ F1 D V1) as (_ & M1 & (z1 & Z1) & _ & I1).
  assert (Fx1 : feasible ds x1). { destruct I1 as [I1|I1]; [rewrite Forall_forall in F1; auto|congruence]. }
  apply bind_Some in H. destruct H as (pos2 & E2 & H).
  apply (rows_loop_inv ds) in E2; auto; [|intros; eapply row2_ok; eauto]. destruct E2 as (F2 & L2).
  apply bind_Some in H. destruct H as ([[[fi2 f2] x2] b2] & V2 & H).
  assert (D2 : held x1 (Some b1) (bs_seen st ++ pos1)) by exact M1.
  destruct (eval_ok _ _ _ _ _ _ _ _ F2 D2 V2) as (_ & M2 & (z2 & Z2) & _ & I2).
  assert (Fx2 : feasible ds x2). { destruct I2 as [I2|I2]; [rewrite Forall_forall in F2; auto|congruence]. }
  apply bind_Some in H. destruct H as (pos3 & E3 & H).
  apply (rows_loop_inv ds) in E3; auto; [|intros; eapply row2_ok; eauto]. destruct E3 as (F3 & L3).
  apply bind_Some in H. destruct H as ([[[fi3 f3] x3] b3] & V3 & H).
  assert (D3 : held x2 (Some b2) ((bs_seen st ++ pos1) ++ pos2)) by exact M2.
  destruct (eval_ok _ _ _ _ _ _ _ _ F3 D3 V3) as (Q3 & M3 & (z3 & Z3) & _ & I3).
  assert (Fx3 : feasible ds x3). { destruct I3 as [I3|I3]; [rewrite Forall_forall in F3; auto|congruence]. }
  inversion H; subst st'; clear H. rewrite !(map_arg ds W) by auto.
  rewrite <- !app_assoc in M3.
  destruct (min3 _ _ _ _ _ _ _ _ _ Z1 Z2 Z3) as (t & T).
  assert (Lb : length (pos1 ++ pos2 ++ pos3) = 3 * n) by (rewrite !app_length; lia).
  assert (Fb : Forall (feasible ds) (pos1 ++ pos2 ++ pos3)) by (repeat (apply Forall_app; split; auto)).
  unfold bat_inv. cbn [bs_pos bs_x bs_f bs_seen bs_fits bs_local bs_global].
  repeat match goal with |- _ /\ _ => split end; auto; try lia.
  - apply Forall_app; auto.
  - rewrite app_length, F, Lb. rewrite (Nat.mul_succ_r (3 * n)). lia.
  - intros _. split; [discriminate|]. split; auto. exists (bs_seen st ++ pos1 ++ pos2). rewrite <- !app_assoc. reflexivity.
  - rewrite app_length; simpl; lia.
  - rewrite app_length; simpl; lia.
  - eapply global_exact_snoc; eauto; [rewrite F, H2; f_equal; lia|]. apply min_of_best. exact M3.
  - eapply local_exact_snoc; eauto; [rewrite F, H1; f_equal; lia|]. apply min_of_best. exact T.
  - intros _ y Hy. inversion Hy; subst. simpl. rewrite Nat.sub_0_r, nth_error_app2, H2, Nat.sub_diag by lia. reflexivity.
Qed.

Lemma bat_best_ok A0 ngen d1 d2 d3 init r : good_init ds n init ->
  bat_evolute expf m fit ds mt n p A0 ngen d1 d2 d3 init = Some r ->
  best_of m fit (br_seen r) (br_x r) (br_y r) /\ br_init r = init /\
  Forall (feasible ds) (br_seen r) /\ length (br_seen r) = 3 * n * ngen /\
  length (br_hg r) = ngen /\ global_exact m fit (3 * n) 1 (br_seen r) (br_hg r) /\ never_worse m (br_hg r) /\
  nth_error (br_hg r) (ngen - 1) = Some (br_y r) /\
  length (br_hl r) = ngen /\ local_exact m fit (3 * n) 1 (br_seen r) (br_hl r) /\
  length (br_pop r) = n /\ (exists early, br_seen r = early ++ br_pop r) /\ Forall2 (fun z v => (v == fit z)%Q) (br_pop r) (br_pf r).
Proof.
  intros (Li & Fi) H. unfold bat_evolute in H. apply bind_Some in H. destruct H as ([i f] & Ea & H).
  apply bind_Some in H. destruct H as (x & Ex & H). destruct (ngen =? 0) eqn:E0; [discriminate|]. apply Nat.eqb_neq in E0.
  apply bind_Some in H. destruct H as (st & Eg & H). apply bind_Some in H. destruct H as (y & Ey & H). inversion H; subst r; clear H.
  assert (I0 : bat_inv 0 (BatSt init x None A0 (bp_r0 p) [] [] [] [] [] [])).
  { unfold bat_inv. cbn [bs_pos bs_x bs_f bs_seen bs_fits bs_local bs_global held].
    repeat match goal with |- _ /\ _ => split end; auto; try lia.
    - eapply row_feas; eauto.
    - apply global_exact_nil.
    - apply local_exact_nil. }
  apply (gens_nat _ bat_inv) with (1 := bat_step ngen d1 d2 d3) in Eg; auto. simpl in Eg.
  destruct Eg as (A & B & C & D & E & F & G & H1 & H2 & H3 & H4 & H5).
  destruct (G E0) as (_ & G2 & G3). rewrite Ey in D. simpl in D.
  cbn [br_x br_y br_hl br_hg br_pop br_pf br_init br_seen].
  repeat match goal with |- _ /\ _ => split end; auto.
  - apply min_of_best; exact D.
  - apply map_arg; auto.
  - eapply global_exact_mono; eauto.
  - rewrite G2. clear. induction (bs_pos st); simpl; constructor; auto. apply as_min_invol.
Qed.

(** Totality: five bats are required by the constructor; four are enough. *)
Lemma coords_get v best : feasible ds best -> length v = length ds -> forall f : nat -> Q -> Q,
  exists y, coords (fun j _ _ => let* bj := nth_error best j in Some (f j bj)) 0 ds v = Some y /\ length y = length ds.
Proof.
  intros Fb L f. apply coords_total; auto. intros i d a Hi. simpl.
  destruct (feas_nth ds best i d Fb Hi) as (bj & ->). simpl. eauto.
Qed.

Lemma row1_total ngen l a best dr i ps x : 4 <= n -> length ps = n -> Forall (feasible ds) ps -> feasible ds best -> feasible ds x ->
  exists y, bat_row1 expf ds mt n p ngen l a best dr i ps x = Some y.
Proof.
  intros Hn Lp Fp Fb Fx. unfold bat_row1. cbv zeta.
  assert (exists x1, (if bp_levy p then coords (fun j _ xj => Some (xj + b1_levy (dr i) j)%Q) 0 ds x else Some x) = Some x1 /\ length x1 = length ds) as (x1 & -> & L1).
  { destruct (bp_levy p); [|exists x; split; auto; apply feasible_length; auto].
    apply coords_total; [apply feasible_length; auto|]. eauto. }
  cbn [bind]. destruct (b1_idx (dr i)) as [[[d0 d1] d2] d3].
  destruct (sample_total [d0; d1; d2; d3] (seq 0 n)) as (bt & Eb); [rewrite seq_length; simpl; lia|]. rewrite Eb. cbn [bind].
  destruct (sample_perm _ _ _ Eb) as (Lb & _). pose proof (sample_incl _ _ _ Eb) as Ib.
  destruct bt as [|i0 [|i1 bt]]; try discriminate.
  assert (R : forall j, In j (seq 0 n) -> exists r, nth_error (set_nth ps i x1) j = Some r /\ length r = length ds).
  { intros j Hj. apply in_seq in Hj. destruct (nth_error (set_nth ps i x1) j) as [r|] eqn:Er.
    - exists r. split; auto. apply nth_error_In in Er.
      assert (Fl : Forall (fun r => length r = length ds) (set_nth ps i x1)).
      { apply Forall_set_nth; auto. eapply Forall_impl; [|exact Fp]. intros; apply feasible_length; auto. }
      rewrite Forall_forall in Fl. auto.
    - apply nth_error_None in Er. rewrite length_set_nth in Er. lia. }
  destruct (R i0) as (r0 & -> & L0). { apply Ib; simpl; auto. }
  destruct (R i1) as (r1 & -> & L2). { apply Ib; simpl; auto. }
  cbn [bind].
  match goal with |- exists y, bind (coords ?f 0 ds x1) _ = _ => destruct (coords_total f ds 0 x1) as (v & Ev & Lv); auto end.
  { intros j d b Hj. simpl. destruct (feas_nth ds best j d Fb Hj) as (bj & ->). cbn [bind].
    assert (j < length ds) by (apply nth_error_Some; congruence).
    destruct (nth_error r0 j) eqn:X0; [|apply nth_error_None in X0; lia]. destruct (nth_error r1 j) eqn:X1; [|apply nth_error_None in X1; lia].
    cbn [bind]. eauto. }
  rewrite Ev. cbn [bind]. destruct (settle_total expf ds W a mt (b1_vd (dr i)) v Lv DO) as (w & -> & _). eauto.
Qed.
Lemma row2_total a s go best dr i ps x : feasible ds best -> feasible ds x -> exists y, bat_row2 expf ds mt a s go best dr i ps x = Some y.
Proof.
  intros Fb Fx. unfold bat_row2. cbv zeta. pose proof (feasible_length _ _ Fx) as Lx.
  assert (exists v, (if go (b2_u (dr i)) then coords (fun j _ _ => let* bj := nth_error best j in Some (bj + s * b2_dev (dr i) j)%Q) 0 ds x else Some x) = Some v /\ length v = length ds) as (v & -> & Lv).
  { destruct (go _); [|eauto]. apply (coords_get x best Fb Lx (fun j bj => bj + s * b2_dev (dr i) j)%Q). }
  cbn [bind]. destruct (settle_total expf ds W a mt (b2_vd (dr i)) v Lv DO) as (w & -> & _). eauto.
Qed.
Lemma eval_total pos x f : pos <> [] -> exists fits f1 x1 b1, bat_eval m fit ds pos x f = Some (fits, f1, x1, b1).
Proof.
  intros Hp. unfold bat_eval. cbv zeta. destruct (argmin_Some (map (pt_score m fit ds) pos)) as (i & v & Ea).
  { intros E. apply map_eq_nil in E. auto. }
  rewrite Ea. cbn [bind]. destruct (argmin_spec _ _ _ Ea) as (Hi & _). rewrite nth_error_map in Hi.
  destruct (nth_error pos i) eqn:Ex; [|discriminate]. cbn [bind]. do 4 eexists. reflexivity.
Qed.

Lemma bat_total A0 ngen d1 d2 d3 init : 4 <= n -> good_init ds n init -> ngen <> 0 ->
  exists r, bat_evolute expf m fit ds mt n p A0 ngen d1 d2 d3 init = Some r.
Proof.
  intros Hn (Li & Fi) Hg. unfold bat_evolute.
  assert (Hi : init <> []) by (intros ->; simpl in Li; lia).
  destruct (argmin_Some (map (pt_score m fit ds) init)) as (i & v & Ea). { intros E. apply map_eq_nil in E. auto. }
  rewrite Ea. cbn [bind]. destruct (argmin_spec _ _ _ Ea) as (Hx & _). rewrite nth_error_map in Hx.
  destruct (nth_error init i) as [x|] eqn:Ex; [|discriminate]. cbn [bind].
  replace (ngen =? 0) with false by (symmetry; apply Nat.eqb_neq; auto).
  destruct (gens_nat_total (bat_gen expf m fit ds mt n p ngen d1 d2 d3)
    (fun k st => Forall (feasible ds) (bs_pos st) /\ length (bs_pos st) = n /\ feasible ds (bs_x st) /\ (k <> 0 -> bs_f st <> None)) ngen 0
    (BatSt init x None A0 (bp_r0 p) [] [] [] [] [] [])) as (st & -> & (_ & _ & _ & Hf)).
  - intros k s _ (A & B & C & _). unfold bat_gen. cbv zeta.
    destruct (rows_loop_total ds (bat_row1 expf ds mt n p ngen k (anneal1 k ngen) (bs_x s) (d1 k)) n (bs_pos s)) as (pos1 & E1 & F1 & L1); auto; try lia.
    { intros j ps y Lp Fp Fy Hj. destruct (row1_total ngen k (anneal1 k ngen) (bs_x s) (d1 k) j ps y) as (z & Ez); auto; try lia.
      exists z. split; auto. eapply row1_ok; eauto. }
    rewrite E1. cbn [bind].
    assert (N1 : pos1 <> []) by (intros ->; simpl in L1; lia).
    destruct (eval_total pos1 (bs_x s) (bs_f s) N1) as (fi1 & f1 & x1 & b1 & V1). rewrite V1. cbn [bind].
    assert (Fx1 : feasible ds x1).
    { unfold bat_eval in V1. cbv zeta in V1. apply bind_Some in V1. destruct V1 as ([? ?] & _ & V1). apply bind_Some in V1. destruct V1 as (z & Ez & V1).
      assert (feasible ds z) by (eapply row_feas; eauto).
      destruct (match bs_f s with None => true | Some f0 => Qle_bool _ f0 end); inversion V1; subst; auto. }
    match goal with |- context [rows_loop ?f n pos1] => destruct (rows_loop_total ds f n pos1) as (pos2 & E2 & F2 & L2); auto; try lia end.
    { intros j ps y Lp Fp Fy Hj. destruct (row2_total (anneal1 k ngen) (bs_A s) (fun u => Qltb (bs_r s) u) x1 (d2 k) j ps y) as (z & Ez); auto; try lia.
      exists z. split; auto. eapply row2_ok; eauto. }
    rewrite E2. cbn [bind].
    assert (N2 : pos2 <> []) by (intros ->; simpl in L2; lia).
    destruct (eval_total pos2 x1 (Some b1) N2) as (fi2 & f2 & x2 & b2 & V2). rewrite V2. cbn [bind].
    assert (Fx2 : feasible ds x2).
    { unfold bat_eval in V2. cbv zeta in V2. apply bind_Some in V2. destruct V2 as ([? ?] & _ & V2). apply bind_Some in V2. destruct V2 as (z & Ez & V2).
      assert (feasible ds z) by (eapply row_feas; eauto).
      destruct (Qle_bool _ b1); inversion V2; subst; auto. }
    match goal with |- context [rows_loop ?f n pos2] => destruct (rows_loop_total ds f n pos2) as (pos3 & E3 & F3 & L3); auto; try lia end.
    { intros j ps y Lp Fp Fy Hj. destruct (row2_total (anneal1 k ngen) (bs_r s) (fun u => Qltb u (bs_A s)) x2 (d3 k) j ps y) as (z & Ez); auto; try lia.
      exists z. split; auto. eapply row2_ok; eauto. }
    rewrite E3. cbn [bind].
    assert (N3 : pos3 <> []) by (intros ->; simpl in L3; lia).
    destruct (eval_total pos3 x2 (Some b2) N3) as (fi3 & f3 & x3 & b3 & V3). rewrite V3. cbn [bind].
    assert (Fx3 : feasible ds x3).
    { unfold bat_eval in V3. cbv zeta in V3. apply bind_Some in V3. destruct V3 as ([? ?] & _ & V3). apply bind_Some in V3. destruct V3 as (z & Ez & V3).
      assert (feasible ds z) by (eapply row_feas; eauto).
      destruct (Qle_bool _ b2); inversion V3; subst; auto. }
    eexists. split; [reflexivity|]. cbn [bs_pos bs_x bs_f]. repeat split; auto; try lia. discriminate.
  - cbn [bs_pos bs_x bs_f]. repeat split; auto. eapply row_feas; eauto.
  - cbn [bind]. destruct (bs_f st) eqn:Ef; [cbn [bind]; eauto|]. exfalso. apply (Hf Hg). reflexivity.
Qed.
End P.

(** * Loudness and pulse rate *)
Section Loud.
Context (expf : Q -> Q) (m : mode) (fit : list Q -> Q) (ds : list dimn) (mt : imethod) (n : nat) (p : bat_par).

Lemma bat_rates A0 ngen d1 d2 d3 init r : bat_evolute expf m fit ds mt n p A0 ngen d1 d2 d3 init = Some r ->
  (0 <= bp_alpha p)%Q -> (bp_alpha p <= 1)%Q -> (0 <= A0)%Q -> (0 <= bp_r0 p)%Q ->
  (forall k, k < ngen -> (0 <= expf (- bp_gamma p * qnat k))%Q /\ (expf (- bp_gamma p * qnat k) <= 1)%Q) ->
  length (br_As r) = ngen /\ length (br_rs r) = ngen /\
  (forall i j a b, i <= j -> nth_error (br_As r) i = Some a -> nth_error (br_As r) j = Some b -> (0 <= b <= a)%Q /\ (a <= A0)%Q) /\
  Forall (fun q => (0 <= q)%Q /\ (q <= bp_r0 p)%Q) (br_rs r).
Proof.
  intros H Ha Ha' HA Hr He. unfold bat_evolute in H. apply bind_Some in H. destruct H as ([i f] & Ea & H).
  apply bind_Some in H. destruct H as (x & Ex & H). destruct (ngen =? 0) eqn:E0; [discriminate|]. apply Nat.eqb_neq in E0.
  apply bind_Some in H. destruct H as (st & Eg & H). apply bind_Some in H. destruct H as (y & Ey & H). inversion H; subst r; clear H.
  cbn [br_As br_rs].
  set (I := fun k (st : bat_state) => k <= ngen -> length (bs_As st) = k /\ length (bs_rs st) = k /\ (0 <= bs_A st)%Q /\ (bs_A st <= A0)%Q /\ 
     (forall i j a b, i <= j -> nth_error (bs_As st) i = Some a -> nth_error (bs_As st) j = Some b -> (0 <= b <= a)%Q /\ (a <= A0)%Q) /\
     (forall a, In a (bs_As st) -> (bs_A st <= a)%Q /\ (a <= A0)%Q) /\
     (0 <= bs_r st)%Q /\ (bs_r st <= bp_r0 p)%Q /\ Forall (fun q => (0 <= q)%Q /\ (q <= bp_r0 p)%Q) (bs_rs st)).
  apply (gens_nat _ I) in Eg.
  - simpl in Eg. destruct (Eg ltac:(lia)) as (A & B & _ & _ & C & _ & _ & _ & D). repeat split; auto; apply (C i0 j a b); auto.
  - intros k s s' Hi Hs Hk. destruct (Hi ltac:(lia)) as (A & B & C & D & E & F & G & K & L). clear Hi.
    unfold bat_gen in Hs. cbv zeta in Hs.
    apply bind_Some in Hs. destruct Hs as (pos1 & _ & Hs). apply bind_Some in Hs. destruct Hs as ([[[fi1 f1] x1] b1] & _ & Hs).
    apply bind_Some in Hs. destruct Hs as (pos2 & _ & Hs). apply bind_Some in Hs. destruct Hs as ([[[fi2 f2] x2] b2] & _ & Hs).
    apply bind_Some in Hs. destruct Hs as (pos3 & _ & Hs). apply bind_Some in Hs. destruct Hs as ([[[fi3 f3] x3] b3] & _ & Hs).
    inversion Hs; subst s'; clear Hs. cbn [bs_A bs_r bs_As bs_rs].
    set (up := Qle_bool (qmin2 (qmin2 f1 f2) f3) b3).
    set (A' := if up then (bp_alpha p * bs_A s)%Q else bs_A s). set (r' := if up then _ else bs_r s).
    assert (HA' : (0 <= A')%Q /\ (A' <= bs_A s)%Q). { unfold A'. destruct up; [|lra]. split; nra. }
    assert (Hr' : (0 <= r')%Q /\ (r' <= bp_r0 p)%Q).
    { unfold r'. destruct up; [|auto]. destruct (He k ltac:(lia)) as (E1 & E2). split; nra. }
    rewrite !app_length. simpl. repeat split; auto; try lia; try lra.
    + destruct (Nat.lt_ge_cases j (length (bs_As s))) as [Lj|Lj].
      * rewrite nth_error_app1 in H0, H1 by lia. apply (E i0 j a b); auto.
      * assert (j = length (bs_As s)). { assert (j < length (bs_As s ++ [A'])) by (apply nth_error_Some; congruence). rewrite app_length in *; simpl in *; lia. }
        subst j. rewrite nth_error_app2, Nat.sub_diag in H1 by lia. inversion H1; subst b. apply HA'.
    + destruct (Nat.lt_ge_cases j (length (bs_As s))) as [Lj|Lj].
      * rewrite nth_error_app1 in H0, H1 by lia. apply (E i0 j a b); auto.
      * assert (j = length (bs_As s)). { assert (j < length (bs_As s ++ [A'])) by (apply nth_error_Some; congruence). rewrite app_length in *; simpl in *; lia. }
        subst j. rewrite nth_error_app2, Nat.sub_diag in H1 by lia. inversion H1; subst b.
        apply nth_error_In in H0. apply in_app_or in H0. destruct H0 as [H0|[<-|[]]]; [apply F in H0; lra|lra].
    + apply nth_error_In in H0. apply in_app_or in H0. destruct H0 as [H0|[<-|[]]]; [apply F in H0; lra|lra].
    + apply in_app_or in H. destruct H as [H|[<-|[]]]; [apply F in H; lra|lra].
    + apply in_app_or in H. destruct H as [H|[<-|[]]]; [apply F in H; lra|lra].
    + apply Forall_app. split; auto.
  - intros _. cbn [bs_A bs_r bs_As bs_rs]. repeat split; auto; try lra; try (destruct i0; discriminate); simpl in *; tauto.
Qed.
End Loud.
