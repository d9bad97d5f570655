(** Proofs about Particle Swarm Optimization. *)
From Coq Require Import List Arith ZArith QArith Bool Lia Lqa Sorted.
From Verif Require Import Base BaseFacts Space_Model Space_Spec Space_Facts Opt_Model Opt_Spec Opt_Facts Opt_Facts2 PSO_Model.
Import ListNotations.
Open Scope nat_scope.

Lemma max_of_iff {X} (g : X -> Q) s s' x y : (forall z, In z s <-> In z s') -> max_of g s x y -> max_of g s' x y.
Proof. intros H (A & B & C). split; [apply H; auto|]. split; auto. intros z Hz. apply C. apply H; auto. Qed.

Section PSO.
Context (expf : Q -> Q) (m : mode) (fit : list Q -> Q) (p : pso_par).
Context (W : wf_dims (pp_dims p)).
Let g := fun x => as_max m (fit x).
Let ok := feasible (pp_dims p).

Lemma pso_arg_id x : ok x -> pso_arg p x = x.
Proof. intros F. unfold pso_arg. apply (clip_id (pp_dims p)); auto. apply feasible_inside; auto. Qed.
Lemma pso_score_g x : ok x -> pso_score m fit p x = g x.
Proof. intros F. unfold pso_score. rewrite pso_arg_id; auto. Qed.

(** Moves stay in the space. *)
Lemma pso_coord_ok w sf lf dr i d x v lp sp y u :
  (d_lo d <= d_hi d)%Q /\ (d_int d = true -> is_int (d_lo d) /\ is_int (d_hi d)) ->
  (d_lo d <= x)%Q /\ (x <= d_hi d)%Q /\ (d_int d = true -> is_int x) ->
  pso_coord expf p w sf lf dr i d x v lp sp = Some (y, u) ->
  (d_lo d <= y)%Q /\ (y <= d_hi d)%Q /\ (d_int d = true -> is_int y).
Proof.
  intros [W1 W2] F H. unfold pso_coord in H. cbv zeta in H.
  set (v' := match pp_mech p with Constric => _ | Timew => _ | Globw => _ end) in H. clearbody v'.
  destruct (d_int d) eqn:E.
  - destruct (W2 eq_refl) as [I1 I2]. apply is_int_trunc in I1. apply is_int_trunc in I2.
    pose proof (trunc_mono _ _ W1) as T.
    destruct (Qltb _ _); [|inversion H; subst; auto].
    destruct (_ =? _)%Z.
    + inversion H; subst. split; [rewrite I1; lra|]. split; [rewrite I1; auto|]. intros _. eexists; reflexivity.
    + destruct (pp_farr p); [discriminate|]. apply bind_Some in H. destruct H as (l & Hl & H).
      apply bind_Some in H. destruct H as (z & Hz & H). inversion H; subst. unfold zremove_num in Hl.
      destruct (Qeq_bool _ _); [|discriminate]. apply choice_In in Hz.
      apply (zremove_In _ _ _ (zrange_NoDup _ _) Hl) in Hz. destruct Hz as [Hz _]. apply in_zrange in Hz.
      split; [rewrite <- I1, <- Zle_Qle; lia|]. split; [rewrite <- I2, <- Zle_Qle; lia|]. intros _. eexists; reflexivity.
  - inversion H; subst. clear H. split; [|split; [|congruence]].
    + destruct (Qltb (d_hi d) (x + u)) eqn:A; qprop; match goal with |- context [Qltb ?a ?b] => destruct (Qltb a b) eqn:B end; qprop; lra.
    + destruct (Qltb (d_hi d) (x + u)) eqn:A; qprop; match goal with |- context [Qltb ?a ?b] => destruct (Qltb a b) eqn:B end; qprop; lra.
Qed.

Lemma pso_coords_ok w sf lf dr : forall ds i x v lp sp y u, wf_dims ds -> feasible ds x ->
  pso_coords expf p w sf lf dr i ds x v lp sp = Some (y, u) -> feasible ds y /\ length u = length ds.
Proof.
  induction ds as [|d ds IH]; intros i x v lp sp y u W0 F H; cbn [pso_coords] in H.
  - inversion H; subst. split; [constructor|reflexivity].
  - inversion F as [|? a ? x' Fa Fx]; subst. destruct v as [|b v]; [discriminate|].
    destruct lp as [|c lp]; [discriminate|]. destruct sp as [|e sp]; [discriminate|].
    apply bind_Some in H. destruct H as ([y0 u0] & E1 & H). apply bind_Some in H. destruct H as ([ys us] & E2 & H).
    inversion H; subst. inversion W0 as [|? ? Wd W']; subst.
    destruct (IH _ _ _ _ _ _ _ W' Fx E2) as [I1 I2].
    split; [constructor; [eapply pso_coord_ok; eauto|exact I1]|simpl; auto].
Qed.

Definition p_ok (a : particle) : Prop :=
  ok (pa_pos a) /\ length (pa_vel a) = length (pp_dims p) /\ Forall ok (pa_log a) /\
  max_of g (pa_log a) (pa_lpos a) (pa_lfit a).

Lemma pso_move_ok st drs i a b : p_ok a -> pso_move expf p st drs i a = Some b ->
  p_ok b /\ pa_log b = pa_log a.
Proof.
  intros (P1 & P2 & P3 & P4) H. unfold pso_move in H. apply bind_Some in H. destruct H as ([x v] & E & H).
  inversion H; subst. apply pso_coords_ok in E; auto. destruct E as [E1 E2]. split; [|reflexivity].
  split; auto.
Qed.

(** Evaluation of a list of moved particles. *)
Lemma pso_eval_spec l : forall S pos best l' pos' best', Forall p_ok l ->
  (forall a, In a l -> incl (pa_log a) S) -> max_of g S pos best ->
  pso_eval m fit p pos best l = (l', (pos', best')) ->
  Forall p_ok l' /\ length l' = length l /\
  Forall2 (fun a a' => pa_log a' = pa_log a ++ [pa_pos a] /\ pa_pos a' = pa_pos a /\ pa_fit a' = g (pa_pos a)) l l' /\
  max_of g (S ++ map pa_pos l) pos' best'.
Proof.
  induction l as [|a l IH]; intros S0 pos best l' pos' best' F HI HM H; cbn [pso_eval] in H.
  - inversion H; subst. simpl. rewrite app_nil_r. auto.
  - inversion F as [|? ? (P1 & P2 & P3 & P4) F']; subst. rewrite pso_score_g, pso_arg_id in H by auto.
    set (f := g (pa_pos a)) in *.
    destruct (if Qltb (pa_lfit a) f && Qltb best f then (pa_pos a, f) else (pos, best)) as [pos1 best1] eqn:E1.
    destruct (pso_eval m fit p pos1 best1 l) as [r' pb] eqn:E2. inversion H; subst. clear H.
    assert (LB : (pa_lfit a <= best)%Q).
    { destruct P4 as (A1 & A2 & _). rewrite A2. apply HM. apply (HI a (or_introl eq_refl)). auto. }
    assert (M1 : max_of g (S0 ++ [pa_pos a]) pos1 best1).
    { destruct (max_of_app g S0 [pa_pos a] pos best (pa_pos a) f HM (max_of_single g (pa_pos a))) as [C1 C2].
      destruct (Qltb (pa_lfit a) f) eqn:D1, (Qltb best f) eqn:D2; cbn [andb] in E1; inversion E1; subst; qprop.
      - apply C2. lra.
      - apply C1. lra.
      - apply C1. lra.
      - apply C1. lra. }
    destruct (IH (S0 ++ [pa_pos a]) pos1 best1 r' pos' best') as (J1 & J2 & J3 & J4); auto.
    { intros b Hb z Hz. apply in_app_iff. left. eapply HI; [right; eauto|auto]. }
    split; [|split; [simpl; auto|split]].
    + constructor; auto. split; [auto|]. split; [auto|]. cbn [pa_log pa_lpos pa_lfit].
      split; [apply Forall_app; split; auto|].
      destruct (max_of_app g (pa_log a) [pa_pos a] (pa_lpos a) (pa_lfit a) (pa_pos a) f P4 (max_of_single g (pa_pos a))) as [C1 C2].
      destruct (Qltb (pa_lfit a) f) eqn:D1; qprop; [apply C2|apply C1]; lra.
    + constructor; auto.
    + simpl. rewrite <- app_assoc in J4. auto.
Qed.

Definition logs (l : list particle) : list (list Q) := concat (map pa_log l).

Lemma in_logs l z : In z (logs l) <-> exists a, In a l /\ In z (pa_log a).
Proof.
  unfold logs. rewrite in_concat. split.
  - intros (x & Hx & Hz). apply in_map_iff in Hx. destruct Hx as (a & <- & Ha). eauto.
  - intros (a & Ha & Hz). exists (pa_log a). split; auto. apply in_map; auto.
Qed.

Definition pso_inv (k : nat) (st : pso_state) : Prop :=
  Forall p_ok (ps_swarm st) /\ length (ps_swarm st) = pp_npar p /\
  Forall (fun a => length (pa_log a) = k) (ps_swarm st) /\
  max_of g (logs (ps_swarm st)) (ps_pos st) (ps_fit st) /\
  (forall s, In s (ps_scores st) -> (s <= ps_fit st)%Q) /\ length (ps_scores st) + 1 = k.

Lemma pso_gen_inv ngen ws drs k gi st st' : pso_inv k st -> pso_gen expf m fit p ngen ws drs gi st = Some st' ->
  pso_inv (S k) st'.
Proof.
  intros (P1 & P2 & P3 & P4 & P5 & P6) H. unfold pso_gen in H.
  apply bind_Some in H. destruct H as (moved & Hm & H).
  destruct (pso_eval m fit p (ps_pos st) (ps_fit st) moved) as [swarm [pos best]] eqn:EV.
  apply bind_Some in H. destruct H as (w & _ & H). apply bind_Some in H. destruct H as ([ka s] & Ha & H).
  inversion H; subst st'. clear H.
  assert (MV : Forall2 (fun a b => p_ok b /\ pa_log b = pa_log a) (ps_swarm st) moved).
  { eapply traverse_Forall2; [|exact Hm]. intros k0 a b Hin Hb. eapply pso_move_ok; [|exact Hb].
    rewrite Forall_forall in P1. auto. }
  assert (ML : forall z, In z (logs (ps_swarm st)) <-> In z (logs moved)).
  { clear - MV. intros z. unfold logs. induction MV as [|a b l l' [_ E] MV IH]; simpl; [tauto|].
    rewrite !in_app_iff, E, IH. tauto. }
  assert (MF : Forall p_ok moved) by (clear - MV; induction MV; constructor; tauto).
  pose proof (Forall2_length _ _ _ MV) as LM.
  assert (M0 : max_of g (logs moved) (ps_pos st) (ps_fit st)) by (eapply max_of_iff; eauto).
  assert (LI : forall a, In a moved -> incl (pa_log a) (logs moved)) by (intros a Ha0 z Hz; apply in_logs; eauto).
  destruct (pso_eval_spec moved (logs moved) (ps_pos st) (ps_fit st) swarm pos best MF LI M0 EV) as (J1 & J2 & J3 & J4).
  cbn [ps_swarm ps_pos ps_fit ps_scores]. unfold pso_inv. cbn [ps_swarm ps_pos ps_fit ps_scores].
  split; auto. split; [congruence|]. split.
  { clear - MV J3 P3. revert swarm J3. induction MV as [|a b l l' [_ E] MV IH]; intros sw J; inversion J as [|? c ? sw' (C & _) J']; subst; constructor.
    - inversion P3; subst. rewrite C, app_length, E. simpl. lia.
    - inversion P3; subst. auto. }
  split.
  { eapply max_of_iff; [|exact J4]. intros z. rewrite in_app_iff. clear - J3.
    unfold logs. induction J3 as [|a b l l' (E & _) MV IH]; simpl; [tauto|].
    rewrite !in_app_iff, E, in_app_iff, <- IH. simpl. tauto. }
  split; [|rewrite app_length; simpl; lia].
  assert (OLD : (ps_fit st <= best)%Q).
  { destruct M0 as (A1 & A2 & _). rewrite A2. apply J4. apply in_app_iff; auto. }
  intros q Hq. apply in_app_iff in Hq. destruct Hq as [Hq|[<-|[]]].
  - pose proof (P5 q Hq). lra.
  - apply argmax_spec in Ha. destruct Ha as [Ha _]. rewrite nth_error_map in Ha.
    destruct (nth_error swarm ka) as [c|] eqn:Ec; [|discriminate]. simpl in Ha. inversion Ha; subst s.
    assert (exists b, In b moved /\ pa_fit c = g (pa_pos b)) as (b & Hb & ->).
    { clear - J3 Ec. revert ka Ec. induction J3 as [|a b l l' (_ & _ & E) J IH]; intros [|k] Ec; simpl in *; try discriminate.
      - inversion Ec; subst. eauto.
      - destruct (IH k Ec) as (b0 & ? & ?); eauto. }
    apply J4. apply in_app_iff. right. apply in_map. auto.
Qed.

Lemma pso_gens_inv ngen ws drs todo : forall gi k st st', pso_inv k st ->
  gens (pso_gen expf m fit p ngen ws drs) gi todo st = Some st' -> pso_inv (todo + k) st'.
Proof.
  induction todo as [|t IH]; intros gi k st st' I H; cbn [gens] in H; [inversion H; subst; auto|].
  apply bind_Some in H. destruct H as (s1 & E & H). apply (pso_gen_inv _ _ _ k) in E; auto.
  apply (IH _ (S k)) in H; auto. replace (S t + k) with (t + S k) by lia. auto.
Qed.

Lemma pso_start_inv init st : length init = pp_npar p -> Forall ok init -> pso_start m fit p init = Some st -> pso_inv 1 st.
Proof.
  intros L F H. unfold pso_start in H.
  destruct (sort_desc pa_fit (map (pso_particle m fit p) init)) as [|b r] eqn:E; [discriminate|]. inversion H; subst st. clear H.
  unfold pso_inv. cbn [ps_swarm ps_pos ps_fit ps_scores].
  assert (PO : Forall p_ok (map (pso_particle m fit p) init)).
  { clear - F W. induction F as [|x l Hx F IH]; simpl; constructor; auto. unfold p_ok, pso_particle. cbn [pa_pos pa_vel pa_log pa_lpos pa_lfit].
    split; auto. split; [rewrite map_length; apply feasible_length; auto|].
    rewrite pso_arg_id, pso_score_g by auto. split; [constructor; auto|apply max_of_single]. }
  split; auto. split; [rewrite map_length; auto|]. split.
  { clear. induction init; simpl; constructor; auto. }
  split.
  { assert (LG : logs (map (pso_particle m fit p) init) = init).
    { clear - F W. unfold logs. induction F; simpl; auto. rewrite IHF, pso_arg_id; auto. }
    rewrite LG.
    assert (Hb : In b (map (pso_particle m fit p) init)) by (apply (in_sort_desc pa_fit); rewrite E; left; auto).
    assert (Hmax : forall a, In a (map (pso_particle m fit p) init) -> (pa_fit a <= pa_fit b)%Q).
    { intros a Ha. apply (in_sort_desc pa_fit) in Ha. rewrite E in Ha. destruct Ha as [->|Ha]; [apply Qle_refl|].
      pose proof (sort_desc_sorted pa_fit (map (pso_particle m fit p) init)) as SS. rewrite E in SS.
      inversion SS as [|? ? _ FF]; subst. rewrite Forall_forall in FF. apply FF; auto. }
    apply in_map_iff in Hb. destruct Hb as (x & <- & Hx). rewrite Forall_forall in F.
    unfold pso_particle at 1 2. cbn [pa_pos pa_fit]. rewrite pso_score_g by auto. split; auto. split; [reflexivity|].
    intros z Hz. specialize (Hmax _ (in_map (pso_particle m fit p) _ _ Hz)). unfold pso_particle in Hmax. cbn [pa_fit] in Hmax.
    rewrite !pso_score_g in Hmax by auto. auto. }
  split; [intros s []|reflexivity].
Qed.

Lemma pso_best ngen ws drs init r : Forall ok init -> pso_evolute expf m fit p ngen ws drs init = Some r ->
  best_of m fit (logs (pr_swarm r)) (pr_x r) (pr_y r) /\
  Forall (fun a => best_of m fit (pa_log a) (pa_lpos a) (as_max m (pa_lfit a))) (pr_swarm r) /\
  length (pr_swarm r) = pp_npar p /\ Forall (fun a => length (pa_log a) = S ngen) (pr_swarm r) /\
  Forall (feasible (pp_dims p)) (logs (pr_swarm r)) /\
  length (pr_local r) = ngen /\ (forall v, In v (pr_local r) -> as_good m (pr_y r) v) /\ never_worse m (pr_global r).
Proof.
  intros F H. unfold pso_evolute in H. destruct (Nat.eqb_spec (length init) (pp_npar p)); [|discriminate].
  cbn [negb] in H. destruct (Nat.eqb_spec ngen 0); [discriminate|].
  apply bind_Some in H. destruct H as (st0 & E0 & H). apply bind_Some in H. destruct H as (st & E & H).
  inversion H; subst r. clear H. cbn [pr_swarm pr_x pr_y pr_local pr_global].
  apply pso_start_inv in E0; auto. apply (pso_gens_inv _ _ _ _ _ 1) in E; auto.
  destruct E as (P1 & P2 & P3 & P4 & P5 & P6).
  split; [apply max_of_best; auto|]. split.
  { eapply Forall_impl; [|exact P1]. intros a (_ & _ & _ & Q4). apply max_of_best; auto. }
  split; auto. split; [eapply Forall_impl; [|exact P3]; simpl; intros; lia|]. split.
  { apply Forall_forall. intros z Hz. apply in_logs in Hz. destruct Hz as (a & Ha & Hz).
    rewrite Forall_forall in P1. destruct (P1 a Ha) as (_ & _ & Q3 & _). rewrite Forall_forall in Q3. apply Q3; auto. }
  split; [rewrite map_length; lia|]. split.
  - intros v Hv. apply in_map_iff in Hv. destruct Hv as (s & <- & Hs). apply as_max_good. rewrite !as_max_invol. auto.
  - change (match m with Mmin => qmin2 | Mmax => qmax2 end) with (acc_op m). apply accumulate_never_worse.
Qed.

(** The initial swarm is the first entry of the logs. *)
Definition first_logged (init : list (list Q)) (sw : list particle) : Prop :=
  Forall2 (fun x a => hd_error (pa_log a) = Some x) init sw.

Lemma pso_eval_first init l : forall pos best l' pb, first_logged init l ->
  pso_eval m fit p pos best l = (l', pb) -> first_logged init l'.
Proof.
  unfold first_logged. intros pos best l' pb H. revert pos best l' pb.
  induction H as [|x a init l Hx H IH]; intros pos best l' pb E; cbn [pso_eval] in E.
  - inversion E; subst. constructor.
  - destruct (if _ && _ then _ else _) as [a1 b1]. destruct (pso_eval m fit p a1 b1 l) as [r' pb'] eqn:E2. inversion E; subst.
    constructor; [|eapply IH; eauto]. cbn [pa_log]. destruct (pa_log a); [discriminate|]. simpl in *. auto.
Qed.
Lemma pso_gens_first init ngen ws drs todo : forall gi st st', first_logged init (ps_swarm st) ->
  gens (pso_gen expf m fit p ngen ws drs) gi todo st = Some st' -> first_logged init (ps_swarm st').
Proof.
  induction todo as [|t IH]; intros gi st st' I H; cbn [gens] in H; [inversion H; subst; auto|].
  apply bind_Some in H. destruct H as (s1 & E & H). apply (IH _ _ _) in H; auto. clear H IH.
  unfold pso_gen in E. apply bind_Some in E. destruct E as (moved & Hm & E).
  destruct (pso_eval _ _ _ _ _ moved) as [swarm [pos best]] eqn:EV.
  apply bind_Some in E. destruct E as (w & _ & E). apply bind_Some in E. destruct E as ([kk q] & _ & E).
  inversion E; subst s1. cbn [ps_swarm]. eapply pso_eval_first; [|exact EV].
  assert (MV : Forall2 (fun a b => pa_log b = pa_log a) (ps_swarm st) moved).
  { eapply traverse_Forall2; [|exact Hm]. intros k0 c b _ Hb. unfold pso_move in Hb. apply bind_Some in Hb.
    destruct Hb as ([x v] & _ & Hb). inversion Hb; subst. reflexivity. }
  clear - MV I. unfold first_logged in *. revert moved MV. induction I as [|x a l l' Hx I IH]; intros mv MV; inversion MV; subst; constructor; auto. congruence.
Qed.
Lemma pso_first ngen ws drs init r : Forall ok init -> pso_evolute expf m fit p ngen ws drs init = Some r ->
  Forall2 (fun x a => hd_error (pa_log a) = Some x) init (pr_swarm r).
Proof.
  intros F H. unfold pso_evolute in H. destruct (Nat.eqb_spec (length init) (pp_npar p)); [|discriminate].
  cbn [negb] in H. destruct (Nat.eqb_spec ngen 0); [discriminate|].
  apply bind_Some in H. destruct H as (st0 & E0 & H). apply bind_Some in H. destruct H as (st & E & H).
  inversion H; subst r. clear H. cbn [pr_swarm]. eapply (pso_gens_first init); [|exact E].
  unfold pso_start in E0. destruct (sort_desc _ _); [discriminate|]. inversion E0; subst. cbn [ps_swarm].
  clear - F W. induction F; simpl; constructor; auto. cbn [pa_log pso_particle]. rewrite pso_arg_id; auto.
Qed.
Lemma pso_init_logged ngen ws drs init r : Forall ok init -> pso_evolute expf m fit p ngen ws drs init = Some r ->
  incl init (logs (pr_swarm r)).
Proof.
  intros F H z Hz. apply pso_first in H; auto. apply in_logs. clear F. induction H as [|x a l l' Hx H IH]; [contradiction|].
  destruct Hz as [->|Hz]; [exists a; split; [left; auto|]|destruct (IH Hz) as (b & ? & ?); exists b; split; [right|]; auto].
  destruct (pa_log a); [discriminate|]. inversion Hx. left. auto.
Qed.

(** No exception when the bounds are integers (or there is no integer variable). *)
Lemma pso_coord_total w sf lf dr i d x v lp sp : (d_int d = true -> pp_farr p = false) ->
  (d_lo d <= x)%Q /\ (x <= d_hi d)%Q /\ (d_int d = true -> is_int x) ->
  exists y u, pso_coord expf p w sf lf dr i d x v lp sp = Some (y, u).
Proof.
  intros HF (F1 & F2 & F3). unfold pso_coord. cbv zeta. set (v' := match pp_mech p with Constric => _ | Timew => _ | Globw => _ end). clearbody v'.
  destruct (d_int d) eqn:E; [|eauto]. rewrite HF by auto. destruct (Qltb _ _); [|eauto].
  destruct (Z.eqb_spec (trunc (d_lo d)) (trunc (d_hi d))); [eauto|].
  unfold zremove_num. assert (Qeq_bool x (inject_Z (trunc x)) = true) as ->.
  { apply Qeq_bool_iff. symmetry. apply is_int_trunc. auto. }
  assert (d_lo d <= d_hi d)%Q by lra. pose proof (trunc_mono _ _ H).
  destruct (perturb_total x (d_lo d) (d_hi d) (pd_pick dr i) F1 F2 ltac:(lia)) as (z & Hz & _).
  destruct (zremove _ _); [|discriminate]. cbn [bind]. rewrite Hz. cbn [bind]. eauto.
Qed.
Lemma pso_coords_total w sf lf dr : forall ds i x v lp sp,
  Forall (fun d => d_int d = true -> pp_farr p = false) ds -> feasible ds x ->
  length v = length ds -> length lp = length ds -> length sp = length ds ->
  exists y u, pso_coords expf p w sf lf dr i ds x v lp sp = Some (y, u).
Proof.
  induction ds as [|d ds IH]; intros i x v lp sp HF F L1 L2 L3; cbn [pso_coords]; eauto.
  inversion F as [|? a ? x' Fa Fx]; subst. inversion HF; subst.
  destruct v as [|b v]; [discriminate|]. destruct lp as [|c lp]; [discriminate|]. destruct sp as [|e sp]; [discriminate|].
  destruct (pso_coord_total w sf lf dr i d a b c e H1 Fa) as (y & u & ->). cbn [bind].
  destruct (IH (S i) x' v lp sp) as (ys & us & ->); auto. cbn [bind]. eauto.
Qed.

Lemma pso_total ngen ws drs init : 1 <= ngen -> 1 <= pp_npar p -> length init = pp_npar p -> Forall ok init ->
  Forall (fun d => d_int d = true -> pp_farr p = false) (pp_dims p) ->
  (pp_mech p = Timew -> forall l, ws = Some l -> length l = ngen) ->
  exists r, pso_evolute expf m fit p ngen ws drs init = Some r.
Proof.
  intros N1 N2 L F HF HW. unfold pso_evolute. rewrite L, Nat.eqb_refl. cbn [negb].
  destruct (Nat.eqb_spec ngen 0); [lia|].
  assert (exists st0, pso_start m fit p init = Some st0) as (st0 & E0).
  { unfold pso_start. destruct (sort_desc pa_fit (map (pso_particle m fit p) init)) as [|b r] eqn:E; [|eauto].
    exfalso. apply (f_equal (@length _)) in E. rewrite sort_desc_length, map_length in E. simpl in E. lia. }
  rewrite E0. cbn [bind]. apply pso_start_inv in E0; auto.
  assert (T : forall todo gi k st, gi + todo = S ngen -> 1 <= gi -> pso_inv k st ->
    exists st', gens (pso_gen expf m fit p ngen ws drs) gi todo st = Some st').
  { induction todo as [|t IH]; intros gi k st LG G1 I; cbn [gens]; eauto.
    assert (exists st1, pso_gen expf m fit p ngen ws drs gi st = Some st1) as (st1 & E1).
    { unfold pso_gen. pose proof I as (P1 & P2 & P3 & P4 & _).
      destruct (traverse_total (pso_move expf p st (drs gi)) p_ok (ps_swarm st) 0) as (moved & Hm); auto.
      { intros k0 a (A1 & A2 & A3 & A4). unfold pso_move.
        destruct (pso_coords_total (ps_w st) (ps_fit st) (pa_lfit a) (drs gi k0) (pp_dims p) 0 (pa_pos a) (pa_vel a) (pa_lpos a) (ps_pos st)) as (y & u & ->); auto; [| |cbn [bind]; eauto].
        - apply feasible_length. destruct A4 as (A4 & _). rewrite Forall_forall in A3. apply A3; auto.
        - apply feasible_length. destruct P4 as (P4 & _). apply in_logs in P4. destruct P4 as (b & Hb & Hz).
          rewrite Forall_forall in P1. destruct (P1 b Hb) as (_ & _ & Q3 & _). rewrite Forall_forall in Q3. apply Q3; auto. }
      rewrite Hm. cbn [bind]. destruct (traverse_spec _ _ _ _ Hm) as [LM _].
      destruct (pso_eval m fit p (ps_pos st) (ps_fit st) moved) as [swarm [pos best]] eqn:EV.
      assert (LS : length swarm = length moved).
      { clear - EV. revert EV. generalize (ps_pos st), (ps_fit st). intros a b. revert a b swarm pos best. induction moved as [|c l IH]; intros a b sw po be EV; cbn [pso_eval] in EV.
        - inversion EV. auto.
        - destruct (if _ && _ then _ else _) as [a1 b1]. destruct (pso_eval m fit p a1 b1 l) as [r' [po' be']] eqn:E2. inversion EV; subst. simpl. f_equal. eapply IH; eauto. }
      destruct (argmax_Some (map pa_fit swarm)) as (ka & s & Ha).
      { intros E. apply map_eq_nil in E. rewrite E in LS. simpl in LS. lia. }
      destruct (pp_mech p) eqn:EM; cbn [bind]; try (rewrite Ha; cbn [bind]; eauto).
      destruct ws as [l|]; cbn [bind]; [|eauto].
      pose proof (HW eq_refl l eq_refl) as HL. rewrite HL, Nat.eqb_refl.
      destruct (nth_error l (gi - 1)) as [w|] eqn:EN; [|apply nth_error_None in EN; lia].
      cbn [bind]. eauto. }
    rewrite E1. cbn [bind]. apply (IH (S gi) (S k)); [lia|lia|]. eapply pso_gen_inv; eauto. }
  destruct (T ngen 1 1 st0) as (st & E); auto. rewrite E. cbn [bind]. eauto.
Qed.
End PSO.

(** Witnesses. *)
Definition pso_demo_dims : list dimn := [Dim true 0 3; Dim false (-1) 1].
Definition pso_demo_par : pso_par := PsoPar pso_demo_dims 2 (205#100) (205#100) Timew (7#10) false.
Definition pso_demo_init : list (list Q) := [[2; 1#2]; [0; 1]]%Q.
Definition pso_demo_fit (x : list Q) : Q := fold_right Qplus 0%Q x.
Definition pso_draw0 : pdraw := PDraw (fun _ => 1#2)%Q (fun _ => 1#2)%Q (fun _ => 1#2)%Q (fun _ => 0)%Q (fun _ => 0).

Lemma pso_demo_ok : wf_dims pso_demo_dims /\ Forall (feasible pso_demo_dims) pso_demo_init /\
  length pso_demo_init = pp_npar pso_demo_par.
Proof.
  split; [|split; [|reflexivity]].
  - demo_space.
  - demo_space.
Qed.
Lemma pso_demo_runs expf drs : exists r, pso_evolute expf Mmax pso_demo_fit pso_demo_par 5 None drs pso_demo_init = Some r /\ (5#2 <= pr_y r)%Q.
Proof.
  destruct pso_demo_ok as (W & F & L).
  destruct (pso_total expf Mmax pso_demo_fit pso_demo_par W 5 None drs pso_demo_init) as (r & E); try discriminate; try exact F; try (simpl; lia); try (repeat constructor).
  exists r. split; auto.
  destruct (pso_best expf Mmax pso_demo_fit pso_demo_par W 5 None drs pso_demo_init r F E) as ((_ & _ & C) & _).
  apply (C [2; 1#2]%Q). apply (pso_init_logged expf Mmax pso_demo_fit pso_demo_par W 5 None drs pso_demo_init r F E). left. reflexivity.
Qed.

(** The history leaves out the initial swarm. *)
Lemma pso_history_short expf : exists p fit init drs r v, wf_dims (pp_dims p) /\ Forall (feasible (pp_dims p)) init /\
  pso_evolute expf Mmin fit p 1 None drs init = Some r /\ pr_global r = [v] /\ (pr_y r < v)%Q.
Proof.
  exists (PsoPar [Dim false 0 1] 1 2 2 Timew (7#10) false), (fun x => match x with [a] => a | _ => 0 end)%Q, [[1#10]]%Q, (fun _ _ => pso_draw0).
  eexists. eexists. split; [|split; [|split; [vm_compute; reflexivity|split; [reflexivity|vm_compute; reflexivity]]]].
  - demo_space.
  - demo_space.
Qed.

(** A float bound beside an integer variable: the run raises at the first accepted move. *)
Lemma pso_mixed_fails expf : exists p, wf_dims (pp_dims p) /\ pp_farr p = true /\ exists init,
  length init = pp_npar p /\ Forall (feasible (pp_dims p)) init /\
  forall m fit ngen ws drs, (0 < 1 / (1 + expf (- (pp_w p * ((1#10) + pp_c1 p * (1#2) * (1 - 1) + pp_c2 p * (1#2) * (1 - 1)))))) %Q ->
  (forall a b, drs a b = pso_draw0) -> pso_evolute expf m fit p ngen ws drs init = None.
Proof.
  exists (PsoPar [Dim true 0 3; Dim false 0 1] 1 2 2 Constric (7#10) true).
  split; [demo_space|].
  split; [reflexivity|]. exists [[1; 1#2]]%Q. split; [reflexivity|].
  split; [demo_space|].
  intros m fit ngen ws drs HE HD. unfold pso_evolute. cbn [length pp_npar Nat.eqb negb].
  destruct (Nat.eqb_spec ngen 0); auto.
  destruct ngen as [|ngen]; [lia|]. unfold pso_start. cbn [map sort_desc insert_desc bind gens].
  unfold pso_gen at 1. cbn [ps_swarm traverse]. unfold pso_move at 1. cbn [pp_dims pa_pos pa_vel pa_lpos ps_pos pso_particle].
  cbn [map pso_coords]. unfold pso_coord at 1. rewrite HD. cbv zeta. cbn [d_int pp_mech pso_draw0 pd_r1 pd_r2 pd_move pp_w pp_c1 pp_c2].
  match goal with |- context [Qltb 0 ?x] => assert (HH : Qltb 0 x = true) end.
  { apply Qltb_lt. exact HE. }
  rewrite HH. reflexivity.
Qed.
