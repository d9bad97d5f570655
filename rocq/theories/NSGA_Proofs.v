(** Proofs about the runs of NSGA-II and NSGA-III. *)
From Coq Require Import List Arith ZArith QArith Bool Lia Lqa.
From Verif Require Import Base BaseFacts Space_Model Space_Spec Space_Facts Opt_Model Opt_Facts Opt_Facts2 ES_Model ES_Spec ES_Proofs
  ND_Model ND_Spec ND_Proofs ND_Select ND_Niche NDL_Model NDL_Top NSGA_Model NSGA_Spec.
Import ListNotations.
Open Scope nat_scope.

Notation veq := (Forall2 Qeq).
Lemma veq_refl v : veq v v.
Proof. induction v; constructor; auto. reflexivity. Qed.
Lemma veq_trans a b c : veq a b -> veq b c -> veq a c.
Proof. intro H. revert c. induction H; intros c K; inversion K; subst; constructor; eauto. lra. Qed.

Lemma discrete_same ds v : wf_dims ds -> feasible ds v -> veq (es_ensure_discrete ds v) v.
Proof.
  intros W F. unfold es_ensure_discrete. change (dims_bounds ds) with (dim_bounds ds). rewrite clip_id; auto using feasible_inside.
  clear W. induction F as [|d x ds v (A & B & C) F IH]; simpl; constructor; auto. destruct (d_int d); [|reflexivity]. apply is_int_trunc. auto.
Qed.

Section Loop.
Context (expf : Q -> Q) (tau tau' : nat -> Q) (p : es_par).
Context (W : wf_dims (p_dims p)) (Hs : (p_smin p < p_smax p)%Q).

Definition same_ind (a b : member) : Prop := veq (m_ind a) (m_ind b).

Lemma Forall2_refl {A} (R : A -> A -> Prop) l : (forall x, R x x) -> Forall2 R l l.
Proof. intro H. induction l; constructor; auto. Qed.

Lemma set_nth_same (l : list member) i x y : nth_error l i = Some y -> same_ind x y -> Forall2 same_ind (set_nth l i x) l.
Proof.
  revert i. induction l as [|a l IH]; intros [|i] E S0; simpl in *; try discriminate.
  - inversion E; subst. constructor; auto. apply Forall2_refl. intro; apply veq_refl.
  - constructor; [apply veq_refl|]. eauto.
Qed.

Lemma gen_one_same dr pop pop' o : Forall (m_ok p) pop -> gen_one expf tau tau' p dr pop = Some (pop', o) -> Forall2 same_ind pop' pop.
Proof.
  intros F H. unfold gen_one in H.
  assert (RR : Forall2 same_ind pop pop) by (apply Forall2_refl; intro; apply veq_refl).
  destruct (Qltb (od_rn dr) (p_cxpb p)).
  - destruct (length pop <? 2); [discriminate|]. cbv zeta in H.
    destruct (nth_error pop (od_i dr mod length pop)) as [m1|]; [|discriminate].
    destruct (nth_error pop (if _ <? _ then _ else _)) as [m2|]; [|discriminate].
    destruct (p_blend p).
    + destruct (cxESBlend _ _ _ _ _ _ _) as [[[? ?] ?] ?]. inversion H; subst. auto.
    + destruct (cxES2point _ _ _ _ _ _) as [[[[? ?] ?] ?]|]; [|discriminate]. inversion H; subst. auto.
  - destruct (Qltb (od_rn dr) (p_cxpb p + p_mutpb p)).
    + destruct (choice pop (od_i dr)) as [b|]; [|discriminate]. destruct (mutES _ _ _ _ _ _ _) as [xs|]; [|discriminate]. inversion H; subst. auto.
    + destruct (choice pop (od_i dr)) as [b|] eqn:E; [|discriminate]. inversion H; subst. clear H.
      pose proof (choice_In _ _ _ E) as I. pose proof (proj1 (Forall_forall _ _) F b I) as (G & _).
      eapply set_nth_same; [|unfold same_ind; simpl; apply discrete_same; auto].
      exact E.
Qed.

Definition off_ok (o : list Q * list Q) : Prop := feasible (p_dims p) (fst o) /\ length (snd o) = length (p_dims p) /\
  (p_blend p = false -> strat_ok (p_smin p) (p_smax p) (snd o)).

Lemma loop_ok drs : forall todo k pop pop' os, Forall (m_ok p) pop -> nsga_loop expf tau tau' p drs k todo pop = Some (pop', os) ->
  Forall (m_ok p) pop' /\ Forall2 same_ind pop' pop /\ length os = todo /\ Forall off_ok os.
Proof.
  induction todo as [|t IH]; intros k pop pop' os F H; cbn [nsga_loop] in H.
  - inversion H; subst. split; [auto|]. split; [apply Forall2_refl; intro; apply veq_refl|auto].
  - destruct (gen_one _ _ _ _ _ _) as [[pop1 [x s]]|] eqn:E; [|discriminate].
    destruct (nsga_loop _ _ _ _ _ _ _ _) as [[pop2 os']|] eqn:E2; [|discriminate]. inversion H; subst.
    pose proof (gen_one_same _ _ _ _ F E) as SM. apply gen_one_ok in E; auto. destruct E as (P1 & P2 & P3 & P4 & P5).
    destruct (IH _ _ _ _ P1 E2) as (I1 & I2 & I3 & I4). split; [auto|]. split.
    + clear -SM I2. revert pop SM. induction I2; intros pop SM; inversion SM; subst; constructor; eauto. eapply veq_trans; eauto.
    + simpl. split; [auto|]. constructor; auto. split; auto.
Qed.

Lemma loop_total drs : (forall q, 0 < expf q)%Q -> (0 < p_smin p)%Q -> (p_smax p <= 1)%Q ->
  (p_blend p = true \/ 2 <= length (p_dims p)) -> forall todo k pop, 2 <= length pop ->
  Forall (m_ok p) pop -> exists pop' os, nsga_loop expf tau tau' p drs k todo pop = Some (pop', os).
Proof.
  intros He H0 H2 Hd. induction todo as [|t IH]; intros k pop Hn F; cbn [nsga_loop]; eauto.
  destruct (gen_one_total expf tau tau' p (drs k) pop He W H0 Hs H2 Hn Hd F) as (pop' & x & s & E). rewrite E.
  apply gen_one_ok in E; auto. destruct E as (P1 & P2 & _).
  destruct (IH (S k) pop' ltac:(lia) P1) as (pop2 & os & ->). eauto.
Qed.
End Loop.

(** ** Sorting and selection *)
Lemma fronts_ok log ws m k : objectives m ws -> (log = true -> 2 <= m) -> ws <> [] -> 0 < k ->
  exists fs, nd_fronts log ws k = Done fs /\ levels ws fs /\ just_enough (length ws) k fs.
Proof.
  intros O L N K. unfold nd_fronts. destruct log.
  - apply (sortLog_levels ws m (L eq_refl) O k N K).
  - destruct (sort_levels ws m k O N K) as (fs & E & A & B). rewrite E. exists fs. auto.
Qed.

Lemma select_ok alg g log ws m k : alg_ok alg -> objectives m ws -> (log = true -> 2 <= m) -> 0 < k -> k <= length ws ->
  exists sel, nsga_select alg g log ws k = Done sel /\ elitist ws k sel.
Proof.
  intros A O L K Hk. assert (N : ws <> []) by (intros ->; simpl in Hk; lia).
  destruct (fronts_ok log ws m k O L N K) as (fs & E & Lv & J). unfold nsga_select. rewrite E. cbn [obind].
  destruct alg as [|nref niche dist shuffle].
  - destruct (select2_spec ws m k fs O Lv J Hk) as (l & _ & -> & El). eauto.
  - destruct A as [A1 A2]. 
    destruct (select3_ok ws m k fs nref (niche g (map (fun i => nth i ws []) (concat fs))) (dist g (map (fun i => nth i ws []) (concat fs))) (shuffle g) O Lv J Hk (A2 g)) as (part & -> & El & _).
    { intros. apply A1. }
    eauto.
Qed.

Lemma Forall2_le_refl v : Forall2 Qle v v.
Proof. apply Forall2_refl. intro. lra. Qed.
Lemma Forall2_le_trans a b c : Forall2 Qle a b -> Forall2 Qle b c -> Forall2 Qle a c.
Proof. intro H. revert c. induction H; intros c K; inversion K; subst; constructor; eauto. lra. Qed.

(** Every member has a nondominated member above it or equal to it. *)
Lemma dominator ws m : objectives m ws -> forall i, i < length ws ->
  exists j, j < length ws /\ rank ws j 0 /\ Forall2 Qle (nth i ws []) (nth j ws []).
Proof.
  intros O i Hi. destruct (rank_total ws m i O Hi) as (r & R). revert i Hi R.
  induction r as [r IH] using (well_founded_induction lt_wf). intros i Hi R. destruct r as [|r].
  - exists i. split; [auto|]. split; [auto|]. apply Forall2_le_refl.
  - destruct R as [C M]. inversion C as [|? j ? B C']; subst. pose proof (beats_lt _ _ _ B) as [Hj _].
    assert (R : rank ws i (S r)) by (split; auto). destruct (beats_rank ws m j i (S r) O B R) as (s & Rs & Ls).
    destruct (IH s Ls j Hj Rs) as (t & Ht & Rt & D). exists t. split; [auto|]. split; [auto|].
    eapply Forall2_le_trans; [|exact D]. destruct B as (a & b & Ea & Eb & (F & _)).
    rewrite (nth_error_nth _ _ [] Ea), (nth_error_nth _ _ [] Eb). exact F.
Qed.

(** With room for all nondominated members, they are all selected. *)
Lemma selected_first ws m k sel F fs : objectives m ws -> elitist ws k sel -> levels ws (F :: fs) -> length F <= k ->
  0 < k -> k <= length ws -> forall i, rank ws i 0 -> In i sel.
Proof.
  intros O (L & ND & Lt & Up & Rk) [NDF LV] LF K Hk i Ri. destruct (in_dec Nat.eq_dec i sel) as [|N]; auto. exfalso.
  assert (All0 : incl (i :: sel) F).
  { intros j [<-|J]; [apply (LV 0 F eq_refl); auto|]. destruct (rank_total ws m j O (Lt j J)) as (s & Rs). destruct s as [|s].
    - apply (LV 0 F eq_refl). auto.
    - exfalso. apply N. apply (Rk i j 0 (S s)); auto. lia. }
  assert (NDs : NoDup (i :: sel)) by (constructor; auto).
  pose proof (NoDup_incl_length NDs All0) as Z. simpl in Z. lia.
Qed.

Lemma y_update_cases m y mn : y_update m (Some y) mn = Some mn \/ y_update m (Some y) mn = Some y.
Proof. unfold y_update. destruct m; destruct (Qltb _ _); auto. Qed.

Section Run.
Context (expf : Q -> Q) (tau tau' : nat -> Q).
Context (m : mode) (fit : list Q -> list Q) (p : es_par) (alg : nsga_alg) (sort_log : bool) (nobj : nat).
Context (W : wf_dims (p_dims p)) (Hs : (p_smin p < p_smax p)%Q) (Hc : p_clip p = true \/ p_blend p = false).
Context (Hn : 1 <= nobj) (Hf : forall x, length (fit x) = nobj) (Hmu : 2 <= p_mu p) (Hla : p_lambda p = p_mu p) (Ha : alg_ok alg).

Let rw := reward m fit.

Definition valued (seen : list (list Q)) (i : nind) : Prop := exists x', In x' seen /\ veq (q_x i) x' /\ q_v i = rw x'.
Definition ind_ok (i : nind) : Prop := good_pair p (q_x i, q_s i).

Definition pop_inv (st : nsga_state) : Prop :=
  length (s_pop st) = p_mu p /\ Forall ind_ok (s_pop st) /\ Forall (valued (s_seen st)) (s_pop st) /\
  Forall (feasible (p_dims p)) (s_seen st) /\
  (s_cut st = false -> forall x, In x (s_seen st) -> exists i, In i (s_pop st) /\ Forall2 Qle (rw x) (q_v i)).

(** Value recorded for an objective: the value of an evaluated point. *)
Definition y_ok (seen : list (list Q)) (f : nat) (o : option Q) : Prop :=
  match o with None => True | Some y => exists x, In x seen /\ y = nth f (rw x) 0%Q end.

Definition report_inv (st : nsga_state) : Prop :=
  s_front st <> [] /\ incl (s_front st) (s_pop st) /\
  (forall i j, In i (s_front st) -> In j (s_pop st) -> ~ dominates (q_v j) (q_v i)) /\
  (forall j, In j (s_pop st) -> exists i, In i (s_front st) /\ Forall2 Qle (q_v j) (q_v i)) /\
  length (s_x st) = nobj /\
  (forall f x, nth_error (s_x st) f = Some x -> exists i, In i (s_front st) /\ x = q_x i /\
     forall j, In j (s_front st) -> (nth f (q_v i) 0 <= nth f (q_v j) 0)%Q) /\
  (forall f o, nth_error (s_y st) f = Some o -> exists y, o = Some y /\ y_ok (s_seen st) f o).

Lemma rw_length x : length (rw x) = nobj.
Proof. unfold rw, reward. rewrite map_length. auto. Qed.

Lemma valued_length seen i : valued seen i -> length (q_v i) = nobj.
Proof. intros (x & _ & _ & ->). apply rw_length. Qed.

Lemma vals_objectives seen pop : Forall (valued seen) pop -> objectives nobj (map q_v pop).
Proof. intro F. unfold objectives. rewrite Forall_map. eapply Forall_impl; [|exact F]. intros i V. eapply valued_length; eauto. Qed.

Lemma map2_nth_error {A B C} (h : A -> B -> C) l r i c : nth_error (map2 h l r) i = Some c ->
  exists a b, nth_error l i = Some a /\ nth_error r i = Some b /\ c = h a b.
Proof.
  revert r i. induction l as [|a l IH]; intros [|b r] [|i] E; simpl in E; try discriminate.
  - inversion E. exists a, b. auto.
  - apply IH in E. exact E.
Qed.

Lemma map2_length' {A B C} (h : A -> B -> C) l r : length l = length r -> length (map2 h l r) = length l.
Proof. apply map2_length. Qed.

Lemma report_ok log pop ys seen cut : (log = true -> 2 <= nobj) -> pop <> [] -> Forall (valued seen) pop -> length ys = nobj ->
  (forall f o, nth_error ys f = Some o -> y_ok seen f o) ->
  exists st, nsga_report m log pop ys seen cut = Done st /\ s_pop st = pop /\ s_seen st = seen /\ s_cut st = cut /\
    length (s_y st) = nobj /\ report_inv st.
Proof.
  intros HL N V Ly Y. unfold nsga_report.
  pose proof (vals_objectives _ _ V) as O.
  assert (K : 0 < length pop) by (destruct pop; [congruence|simpl; lia]).
  destruct (fronts_ok log (map q_v pop) nobj (length pop) O HL) as (fs & E & Lv & J); [destruct pop; [congruence|discriminate]|auto|].
  rewrite E. cbn [obind]. rewrite map_length in J. destruct fs as [|F fs].
  { destruct J as [J _]. simpl in J. lia. }
  assert (HF : forall i, In i F <-> i < length pop /\ forall j, ~ beats (map q_v pop) j i).
  { intro i. rewrite (levels_first _ _ F i Lv eq_refl). rewrite map_length. tauto. }
  set (front := map (fun i => nth i pop q_none) F).
  assert (IF : incl front pop).
  { intros i I. unfold front in I. apply in_map_iff in I. destruct I as (k & <- & I). apply nth_In. apply HF in I. tauto. }
  assert (ND : forall i j, In i front -> In j pop -> ~ dominates (q_v j) (q_v i)).
  { intros i j I Ij D. unfold front in I. apply in_map_iff in I. destruct I as (k & <- & I). apply HF in I. destruct I as [Hk NB].
    apply (In_nth _ _ q_none) in Ij. destruct Ij as (l & Hl & <-). apply (NB l).
    exists (q_v (nth l pop q_none)), (q_v (nth k pop q_none)). rewrite !nth_error_map.
    rewrite !(nth_error_nth' _ q_none) by auto. auto. }
  assert (CV : forall j, In j pop -> exists i, In i front /\ Forall2 Qle (q_v j) (q_v i)).
  { intros j Ij. apply (In_nth _ _ q_none) in Ij. destruct Ij as (l & Hl & <-).
    destruct (dominator (map q_v pop) nobj O l) as (k & Hk & Rk & D); [rewrite map_length; auto|]. rewrite map_length in Hk.
    exists (nth k pop q_none). split; [unfold front; apply in_map_iff; exists k; split; auto; apply (proj2 Lv 0 F eq_refl); auto|].
    change (@nil Q) with (q_v q_none) in D. rewrite !map_nth in D. exact D. }
  assert (NF : front <> []).
  { destruct pop as [|a r] eqn:EP; [congruence|]. destruct (CV a (or_introl eq_refl)) as (i & I & _). intros Z. rewrite Z in I. destruct I. }
  assert (Lf : forall i, In i front -> length (q_v i) = nobj).
  { intros i I. eapply valued_length. exact (proj1 (Forall_forall _ _) V i (IF i I)). }
  assert (L0 : length (q_v (nth 0 front q_none)) = nobj) by (destruct front as [|a r]; [congruence|]; apply Lf; simpl; auto).
  rewrite L0.
  set (mins := map _ (seq 0 nobj)).
  assert (Lm : length mins = nobj) by (unfold mins; rewrite map_length, seq_length; auto).
  assert (AM : forall f kv, nth_error mins f = Some kv -> f < nobj /\ exists i, nth (fst kv) front q_none = i /\ In i front /\
      snd kv = nth f (q_v i) 0%Q /\ forall j, In j front -> (nth f (q_v i) 0 <= nth f (q_v j) 0)%Q).
  { intros f kv Hkv. assert (Hf' : f < nobj) by (rewrite <- Lm; apply nth_error_Some; congruence). split; [auto|].
    unfold mins in Hkv. rewrite nth_error_map in Hkv. rewrite (nth_error_nth' _ 0) in Hkv by (rewrite seq_length; auto).
    rewrite seq_nth in Hkv by auto. cbn [option_map plus] in Hkv.
    destruct (argmin (column front f)) as [[k v]|] eqn:EA.
    - inversion Hkv; subst kv. cbn [fst snd]. apply argmin_spec in EA. destruct EA as (A1 & A2 & _).
      unfold column in A1. rewrite nth_error_map in A1. destruct (nth_error front k) as [i|] eqn:Ei; [|discriminate].
      cbn [option_map] in A1. inversion A1; subst v. exists i. split; [apply nth_error_nth; auto|]. split; [eapply nth_error_In; eauto|].
      split; [reflexivity|]. intros j Ij. apply A2. unfold column. apply (in_map (fun i => coord f (q_v i))). auto.
    - unfold column in EA. destruct front as [|a r]; [congruence|]. simpl in EA. destruct (argmin_aux _ _ _ _); discriminate. }
  eexists. split; [reflexivity|]. cbn [s_pop s_seen s_cut s_y]. split; [auto|]. split; [auto|]. split; [auto|].
  split; [rewrite map2_length'; lia|].
  unfold report_inv. cbn [s_front s_pop s_x s_y s_seen]. split; [auto|]. split; [auto|]. split; [auto|]. split; [auto|].
  split; [rewrite map_length; auto|]. split.
  - intros f x Hx. rewrite nth_error_map in Hx. destruct (nth_error mins f) as [kv|] eqn:Ek; [|discriminate].
    cbn [option_map] in Hx. inversion Hx; subst x. destruct (AM f kv Ek) as (_ & i & <- & I & _ & MN). exists (nth (fst kv) front q_none). auto.
  - intros f o Ho. apply map2_nth_error in Ho. destruct Ho as (old & kv & Eo & Ek & ->).
    destruct (AM f kv Ek) as (_ & i & _ & I & Sv & _). pose proof (Y f old Eo) as Yo.
    assert (YN : y_ok seen f (Some (snd kv))).
    { pose proof (proj1 (Forall_forall _ _) V i (IF i I)) as (x' & Ix & _ & Ev). exists x'. split; [auto|]. rewrite Sv, Ev. auto. }
    destruct old as [y|]; [|simpl; eauto]. destruct (y_update_cases m y (snd kv)) as [-> | ->]; eauto.
Qed.

Lemma y_ok_more s1 s2 f o : y_ok s1 f o -> y_ok (s1 ++ s2) f o.
Proof. destruct o; simpl; auto. intros (x & I & E). exists x. split; [apply in_app_iff; auto|auto]. Qed.

Lemma clip_good o : off_ok p o -> good_pair p (nsga_clip p o) /\ fst (nsga_clip p o) = fst o.
Proof.
  intros (A & B & C). unfold nsga_clip. destruct (p_clip p).
  - simpl. split; [|auto]. split; [auto|]. split; [simpl; rewrite map_length; auto|]. simpl. apply np_clip_strat. lra.
  - split; [|auto]. destruct Hc as [H|H]; [discriminate|]. split; auto.
Qed.

Lemma map2_in {A B C} (h : A -> B -> C) l r c : In c (map2 h l r) -> exists k a b, nth_error l k = Some a /\ nth_error r k = Some b /\ c = h a b.
Proof. intro I. apply In_nth_error in I. destruct I as (k & E). apply map2_nth_error in E. destruct E as (a & b & H). exists k, a, b. auto. Qed.

Lemma gen_ok log g drs st : (log = true -> 2 <= nobj) -> pop_inv st -> length (s_y st) = nobj ->
  (forall f o, nth_error (s_y st) f = Some o -> y_ok (s_seen st) f o) ->
  forall pop' os, nsga_loop expf tau tau' p drs 0 (p_lambda p) (map (fun i => Mem (q_x i) (q_s i) 0) (s_pop st)) = Some (pop', os) ->
  exists st', nsga_gen expf tau tau' m fit p alg log g drs st = Done st' /\
    pop_inv st' /\ report_inv st' /\ length (s_y st') = nobj /\ s_seen st' = s_seen st ++ map fst os.
Proof.
  intros HL (LP & OK & VA & FS & CV) LY Y pop' os EL.
  assert (MO : Forall (m_ok p) (map (fun i => Mem (q_x i) (q_s i) 0) (s_pop st))).
  { rewrite Forall_map. eapply Forall_impl; [|exact OK]. intros i Hi. exact Hi. }
  destruct (loop_ok expf tau tau' p W Hs drs _ _ _ _ _ MO EL) as (P1 & P2 & P3 & P4).
  unfold nsga_gen. rewrite EL.
  set (off := map (nsga_eval m fit) (map (nsga_clip p) os)).
  set (par := map2 (fun b i => NInd (m_ind b) (m_strat b) (q_v i)) pop' (s_pop st)).
  set (seen' := s_seen st ++ map fst os).
  assert (Lp' : length pop' = p_mu p).
  { apply Forall2_length in P2. rewrite map_length in P2. congruence. }
  assert (Lpar : length par = p_mu p) by (unfold par; rewrite map2_length'; congruence).
  assert (Loff : length off = p_mu p) by (unfold off; rewrite !map_length; congruence).
  assert (OKoff : Forall ind_ok off /\ Forall (valued seen') off).
  { rewrite !Forall_forall. split; intros i I; unfold off in I; apply in_map_iff in I; destruct I as (o' & <- & I);
      apply in_map_iff in I; destruct I as (o & <- & I); pose proof (proj1 (Forall_forall _ _) P4 o I) as Oo; destruct (clip_good o Oo) as [G Ef].
    - unfold ind_ok, nsga_eval. cbn [q_x q_s]. rewrite <- surjective_pairing. auto.
    - unfold valued, nsga_eval. cbn [q_x q_v]. rewrite Ef. exists (fst o). split; [unfold seen'; apply in_app_iff; right; apply in_map; auto|].
      split; [apply veq_refl|auto]. }
  assert (OKpar : Forall ind_ok par /\ Forall (valued seen') par /\ (forall i, In i (s_pop st) -> exists j, In j par /\ q_v j = q_v i)).
  { assert (PP : forall c, In c par -> ind_ok c /\ valued seen' c).
    { intros c I. unfold par in I. apply map2_in in I. destruct I as (k & a & b & Ea & Eb & ->).
      pose proof (proj1 (Forall_forall _ _) P1 a (nth_error_In _ _ Ea)) as Oa. split; [exact Oa|].
      pose proof (proj1 (Forall_forall _ _) VA b (nth_error_In _ _ Eb)) as (x' & Ix & Ex & Ev).
      exists x'. split; [unfold seen'; apply in_app_iff; auto|]. cbn [q_x q_v]. split; [|auto].
      eapply veq_trans; [|exact Ex].
      assert (Em : nth_error (map (fun i => Mem (q_x i) (q_s i) 0) (s_pop st)) k = Some (Mem (q_x b) (q_s b) 0)) by (rewrite nth_error_map, Eb; auto).
      pose proof (Forall2_nth_error _ _ _ _ _ _ P2 Ea Em) as S0. exact S0. }
    split; [apply Forall_forall; intros c I; apply PP; auto|]. split; [apply Forall_forall; intros c I; apply PP; auto|].
    intros i I. apply In_nth_error in I. destruct I as (k & Ek).
    assert (Hk : k < length pop') by (rewrite Lp', <- LP; apply nth_error_Some; congruence).
    destruct (nth_error pop' k) as [a|] eqn:Ea; [|apply nth_error_None in Ea; lia].
    exists (NInd (m_ind a) (m_strat a) (q_v i)). split; [|auto]. apply (nth_error_In _ k). unfold par. rewrite nth_error_map2, Ea, Ek. auto. }
  destruct OKoff as [Oo Vo]. destruct OKpar as (Op & Vp & Keep).
  set (all := off ++ par).
  assert (OKa : Forall ind_ok all) by (apply Forall_app; auto). assert (Va : Forall (valued seen') all) by (apply Forall_app; auto).
  assert (La : length all = p_mu p + p_mu p) by (unfold all; rewrite app_length; lia).
  pose proof (vals_objectives _ _ Va) as O.
  assert (Nw : map q_v all <> []) by (destruct all; [simpl in La; lia|discriminate]).
  destruct (fronts_ok log (map q_v all) nobj (length (map q_v all)) O HL Nw) as (fs & EF & Lv & J); [rewrite map_length; lia|].
  rewrite EF. cbn [obind].
  destruct (select_ok alg g log (map q_v all) nobj (p_mu p) Ha O HL ltac:(lia) ltac:(rewrite map_length; lia)) as (sel & ES & El).
  rewrite ES. cbn [obind]. destruct El as (L1 & L2 & L3 & L4 & L5) eqn:EE. clear EE.
  set (pop2 := map (fun i => nth i all q_none) sel).
  assert (IP : incl pop2 all).
  { intros i I. unfold pop2 in I. apply in_map_iff in I. destruct I as (k & <- & I). apply nth_In. specialize (L3 k I). rewrite map_length in L3. auto. }
  assert (V2 : Forall (valued seen') pop2) by (rewrite Forall_forall in *; intros i I; apply Va, IP; auto).
  assert (N2 : pop2 <> []) by (unfold pop2; destruct sel; [simpl in L1; lia|discriminate]).
  destruct (report_ok log pop2 (s_y st) seen' (s_cut st || (p_mu p <? length (hd [] fs))) HL N2 V2 LY) as (st' & ER & R1 & R2 & R3 & R4 & R5).
  { intros f o Ho. apply y_ok_more. auto. }
  exists st'. split; [exact ER|]. split; [|auto]. unfold pop_inv. rewrite R1, R2, R3.
  split; [unfold pop2; rewrite map_length; auto|]. split; [rewrite Forall_forall in *; intros i I; apply OKa, IP; auto|]. split; [auto|].
  split.
  { unfold seen'. apply Forall_app. split; [auto|]. rewrite Forall_map. eapply Forall_impl; [|exact P4]. intros o Ho. apply Ho. }
  intros Cut x Ix. apply orb_false_iff in Cut. destruct Cut as [C1 C2]. apply Nat.ltb_ge in C2.
  destruct fs as [|F fs]; [destruct J as [J _]; simpl in J; rewrite map_length in J; lia|]. cbn [hd] in C2.
  (* some member of the union covers x *)
  assert (X : exists i, In i all /\ Forall2 Qle (rw x) (q_v i)).
  { unfold seen' in Ix. apply in_app_iff in Ix. destruct Ix as [Ix|Ix].
    - destruct (CV C1 x Ix) as (i & I & D). destruct (Keep i I) as (j & Ij & Ej). exists j. split; [apply in_app_iff; auto|]. rewrite Ej. auto.
    - apply in_map_iff in Ix. destruct Ix as (o & <- & I). exists (nsga_eval m fit (nsga_clip p o)).
      split; [apply in_app_iff; left; unfold off; apply in_map, in_map; auto|]. unfold nsga_eval. cbn [q_v].
      rewrite (proj2 (clip_good o (proj1 (Forall_forall _ _) P4 o I))). apply Forall2_le_refl. }
  destruct X as (i & I & D). apply (In_nth _ _ q_none) in I. destruct I as (k & Hk & <-).
  destruct (dominator (map q_v all) nobj O k) as (j & Hj & Rj & Dj); [rewrite map_length; auto|]. rewrite map_length in Hj.
  change (@nil Q) with (q_v q_none) in Dj. rewrite !map_nth in Dj.
  exists (nth j all q_none). split; [|eapply Forall2_le_trans; eauto]. unfold pop2. apply in_map_iff. exists j. split; [auto|].
  eapply (selected_first (map q_v all) nobj (p_mu p) sel F fs); auto; try lia. rewrite map_length. lia.
Qed.

(** One generation, when it does not raise. *)
Lemma gen_done log g drs st st' : (log = true -> 2 <= nobj) -> pop_inv st -> length (s_y st) = nobj ->
  (forall f o, nth_error (s_y st) f = Some o -> y_ok (s_seen st) f o) ->
  nsga_gen expf tau tau' m fit p alg log g drs st = Done st' ->
  pop_inv st' /\ report_inv st' /\ length (s_y st') = nobj.
Proof.
  intros HL PI LY Y E.
  destruct (nsga_loop expf tau tau' p drs 0 (p_lambda p) (map (fun i => Mem (q_x i) (q_s i) 0) (s_pop st))) as [[pop' os]|] eqn:EL.
  - destruct (gen_ok log g drs st HL PI LY Y pop' os EL) as (st2 & E2 & A & B & C & _). rewrite E in E2. inversion E2; subst. auto.
  - unfold nsga_gen in E. rewrite EL in E. discriminate.
Qed.

Lemma gens_done log drs : (log = true -> 2 <= nobj) -> forall todo g st st', pop_inv st -> length (s_y st) = nobj ->
  (forall f o, nth_error (s_y st) f = Some o -> y_ok (s_seen st) f o) ->
  nsga_gens expf tau tau' m fit p alg log drs g todo st = Done st' ->
  pop_inv st' /\ (1 <= todo -> report_inv st') /\ length (s_y st') = nobj.
Proof.
  intro HL. induction todo as [|t IH]; intros g st st' PI LY Y E; cbn [nsga_gens] in E.
  - inversion E; subst. split; [auto|]. split; [lia|auto].
  - destruct (nsga_gen _ _ _ _ _ _ _ _ _ _ _) as [st1| |] eqn:E1; try discriminate. cbn [obind] in E.
    destruct (gen_done _ _ _ _ _ HL PI LY Y E1) as (A & B & C).
    assert (Y1 : forall f o, nth_error (s_y st1) f = Some o -> y_ok (s_seen st1) f o).
    { intros f o Ho. destruct B as (_ & _ & _ & _ & _ & _ & B). destruct (B f o Ho) as (y & _ & K). auto. }
    destruct t as [|t].
    + cbn [nsga_gens] in E. inversion E; subst. auto.
    + destruct (IH _ _ _ A C Y1 E) as (A2 & B2 & C2). split; [auto|]. split; [intros _; apply B2; lia|auto].
Qed.

Lemma gens_total log drs : (log = true -> 2 <= nobj) -> (forall q, 0 < expf q)%Q -> (0 < p_smin p)%Q -> (p_smax p <= 1)%Q ->
  (p_blend p = true \/ 2 <= length (p_dims p)) -> forall todo g st, pop_inv st -> length (s_y st) = nobj ->
  (forall f o, nth_error (s_y st) f = Some o -> y_ok (s_seen st) f o) ->
  exists st', nsga_gens expf tau tau' m fit p alg log drs g todo st = Done st'.
Proof.
  intros HL He H0 H2 Hd. induction todo as [|t IH]; intros g st PI LY Y; cbn [nsga_gens]; eauto.
  assert (PI' := PI). destruct PI' as (LP & OK & _).
  destruct (loop_total expf tau tau' p W Hs (drs g) He H0 H2 Hd (p_lambda p) 0 (map (fun i => Mem (q_x i) (q_s i) 0) (s_pop st))) as (pop' & os & EL).
  { rewrite map_length. lia. }
  { rewrite Forall_map. eapply Forall_impl; [|exact OK]. intros i Hi. exact Hi. }
  destruct (gen_ok log g (drs g) st HL PI LY Y pop' os EL) as (st2 & E2 & A & B & C & _). rewrite E2. cbn [obind].
  apply IH; auto. intros f o Ho. destruct B as (_ & _ & _ & _ & _ & _ & B). destruct (B f o Ho) as (y & _ & K). auto.
Qed.

Context (init : list (list Q * list Q)) (Hi : length init = p_mu p) (Gi : Forall (good_pair p) init).

Lemma start_inv : pop_inv (nsga_start m fit init) /\ length (s_y (nsga_start m fit init)) = nobj /\
  (forall f o, nth_error (s_y (nsga_start m fit init)) f = Some o -> y_ok (s_seen (nsga_start m fit init)) f o).
Proof.
  unfold nsga_start. cbn [s_pop s_y s_seen s_cut].
  assert (V : Forall (valued (map fst init)) (map (nsga_eval m fit) init)).
  { rewrite Forall_map, Forall_forall. intros o I. exists (fst o). split; [apply in_map; auto|]. split; [apply veq_refl|auto]. }
  split; [|split].
  - unfold pop_inv. cbn [s_pop s_y s_seen s_cut]. split; [rewrite map_length; auto|]. split; [|split; [auto|split]].
    + rewrite Forall_map. eapply Forall_impl; [|exact Gi]. intros o G. unfold ind_ok, nsga_eval. cbn. rewrite <- surjective_pairing. auto.
    + rewrite Forall_map. eapply Forall_impl; [|exact Gi]. intros o G. apply G.
    + intros _ x I. apply in_map_iff in I. destruct I as (o & <- & I). exists (nsga_eval m fit o). split; [apply in_map; auto|]. apply Forall2_le_refl.
  - rewrite map_length. eapply valued_length. apply (proj1 (Forall_forall _ _) V). apply nth_In. rewrite map_length. lia.
  - intros f o Ho. rewrite nth_error_map in Ho. destruct (nth_error _ f); [|discriminate]. simpl in Ho. inversion Ho. simpl. auto.
Qed.

Lemma use_log_ok : use_log sort_log (s_pop (nsga_start m fit init)) = true -> 2 <= nobj.
Proof.
  unfold use_log. intro H. apply andb_true_iff in H. destruct H as [_ H]. apply negb_true_iff, Nat.eqb_neq in H.
  destruct start_inv as ((LP & _ & VA & _) & _).
  rewrite (valued_length (s_seen (nsga_start m fit init))) in H; [lia|].
  apply (proj1 (Forall_forall _ _) VA). apply nth_In. lia.
Qed.

Theorem run_done drs ngen st : nsga_evolute expf tau tau' m fit p alg sort_log drs init ngen = Done st ->
  pop_inv st /\ report_inv st /\ length (s_y st) = nobj.
Proof.
  unfold nsga_evolute. destruct ((length init <? 2) || (ngen =? 0)) eqn:E0; [discriminate|].
  apply orb_false_iff in E0. destruct E0 as [_ E0]. apply Nat.eqb_neq in E0.
  intro E. destruct start_inv as (A & B & C). destruct (gens_done _ _ use_log_ok _ _ _ _ A B C E) as (P & R & L).
  split; [auto|]. split; [apply R; lia|auto].
Qed.

Theorem run_total drs ngen : (forall q, 0 < expf q)%Q -> (0 < p_smin p)%Q -> (p_smax p <= 1)%Q ->
  (p_blend p = true \/ 2 <= length (p_dims p)) -> 1 <= ngen ->
  exists st, nsga_evolute expf tau tau' m fit p alg sort_log drs init ngen = Done st.
Proof.
  intros He H0 H2 Hd Hg. unfold nsga_evolute.
  destruct (Nat.ltb_spec (length init) 2); [lia|]. destruct (Nat.eqb_spec ngen 0); [lia|]. cbn [orb].
  destruct start_inv as (A & B & C). apply gens_total; auto. apply use_log_ok.
Qed.
End Run.
