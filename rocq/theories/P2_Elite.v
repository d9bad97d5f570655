(** PESA2: differential evolution never loses its best member; the starting populations. *)
From Coq Require Import List Arith ZArith QArith Qround Bool Lia Lqa Permutation Sorted.
From Verif Require Import Base BaseFacts Space_Model Space_Spec ER_Model Opt_Model Opt_Spec Opt_Facts Opt_Facts2 Pop_Spec Pop_Proofs
  P2_Model P2_Spec P2_Mem P2_DE P2_Proofs.
Import ListNotations.
Open Scope nat_scope.

Lemma map2_left {A B C} (f : A -> B -> C) : forall l r a, length l = length r -> In a l -> exists b, In b r /\ In (f a b) (map2 f l r).
Proof.
  induction l as [|x l IH]; intros [|y r] a L H; simpl in *; try contradiction; try discriminate.
  destruct H as [<-|H]; [exists y; auto|]. destruct (IH r a) as (b & Hb & Hf); auto. exists b. auto.
Qed.

Section E.
Context (expf cosf : Q -> Q) (pwf : Q -> Q -> Q) (m : mode) (fit : list Q -> Q) (p : p2_par).
Local Notation ds := (p2_dims p).
Local Notation F1 := (p2_F1 m fit).
Hypothesis W : wf_dims ds.
Hypothesis D : discrete_ok (p2_method p) ds.
Hypothesis N : 4 < p2_npop p.
Hypothesis N1 : 1 <= p2_nwolves p.
Hypothesis N2 : 1 <= p2_nwhales p.
Hypothesis R1 : (p2_R p <= 1)%Q.
Hypothesis Resp : respects fit.
Hypothesis K : keeps_ints (p2_method p) ds.

Lemma hde_gen_elite h0 ngen drs g st st' : hde_inv p h0 st -> hde_gen expf m fit p ngen drs g st = Some st' ->
  forall r, In r (hd_pop st) -> exists r', In r' (hd_pop st') /\ (F1 (h_get (hd_heap st) r) <= F1 (h_get (hd_heap st') r'))%Q.
Proof.
  intros (L & L0 & F & R & _ & _) E r Hr. unfold hde_gen in E.
  destruct (hde_iter expf p W D N ngen (hd_pop st) (drs g) L (seq 0 (p2_npop p)) (hd_heap st) R F) as (h & vs & E1 & Lv & L1 & Rv & Fh & K1).
  { intros j Hj. apply in_seq in Hj. lia. }
  rewrite E1 in E. cbn [bind] in E. injection E as <-. cbn [hd_pop hd_heap]. rewrite seq_length in Lv.
  destruct (map2_left (fun t v => if Qltb (p2_score m fit p (h_get h t)) (p2_score m fit p (h_get h v)) then v else t) (hd_pop st) vs r) as (v & Hv & Hi); [lia|auto|].
  eexists. split; [exact Hi|]. cbn beta.
  rewrite Forall_forall in R, Rv. pose proof (R r Hr) as Hr1. cbn beta in Hr1.
  assert (Sr : p2_score m fit p (h_get h r) = F1 (h_get h r)) by (apply score_feasible; auto; apply get_feasible; auto; eapply Nat.lt_le_trans; [exact Hr1|lia]).
  assert (Sv : p2_score m fit p (h_get h v) = F1 (h_get h v)) by (apply score_feasible; auto; apply get_feasible; auto).
  rewrite (F1_veq m fit Resp _ _ (K1 K r Hr1)). rewrite Sr, Sv.
  match goal with |- context [if ?c then v else r] => destruct c eqn:B end; [apply Qltb_lt in B; lra|lra].
Qed.

Lemma de_mod_elite ngen drs h (x0 : list ref) h' pop s : Forall (fun r => r < length h) x0 -> Forall (feasible ds) h ->
  1 <= ngen -> de_mod expf m fit p ngen drs h x0 = Some (h', pop, s) ->
  forall r, In r x0 -> exists rq, In rq pop /\ (F1 (h_get h r) <= snd rq)%Q.
Proof.
  intros R F Hn E. unfold de_mod in E. destruct (length x0 =? p2_npop p) eqn:L; [|discriminate]. apply Nat.eqb_eq in L. cbn [negb] in E.
  apply bind_Some in E. destruct E as (st & Eg & E).
  assert (I0 : hde_inv p h (HdeSt h x0 [] [])).
  { unfold hde_inv; cbn [hd_pop hd_heap hd_seen]. split; auto. split; auto. split; auto. split; auto. split; auto. intros _. apply old_refl. }
  assert (Gn : forall todo g s0 s', hde_inv p h s0 -> gens (hde_gen expf m fit p ngen drs) g todo s0 = Some s' ->
     (forall r, In r (hd_pop s0) -> exists r', In r' (hd_pop s') /\ (F1 (h_get (hd_heap s0) r) <= F1 (h_get (hd_heap s') r'))%Q) /\
     (1 <= todo -> hde_scored m fit s')).
  { induction todo as [|t IH]; intros g s0 s' Hs Hg; cbn [gens] in Hg.
    - injection Hg as <-. split; [|lia]. intros r Hr. exists r. split; auto. lra.
    - apply bind_Some in Hg. destruct Hg as (s1 & E1 & Hg). destruct (hde_gen_ok expf m fit p W D N h ngen drs g s0 Hs) as (s2 & E2 & I2 & Sc).
      rewrite E1 in E2. injection E2 as <-. destruct (IH _ _ _ I2 Hg) as (A & B). split.
      + intros r Hr. destruct (hde_gen_elite h ngen drs g s0 s1 Hs E1 r Hr) as (r1 & H1 & Q1). destruct (A r1 H1) as (r2 & H2 & Q2). exists r2. split; auto. lra.
      + intros _. destruct t as [|t]; [cbn [gens] in Hg; injection Hg as <-; auto|apply B; lia]. }
  destruct (Gn _ _ _ _ I0 Eg) as (A & B). specialize (B Hn). destruct B as (Lf & Sc).
  intros r Hr. destruct (A r Hr) as (r' & Hr' & Q1). cbn [hd_heap] in Q1.
  assert (Hq : exists j, nth_error (hd_pop st) j = Some r') by (apply In_nth_error; auto). destruct Hq as (j & Hj).
  assert (Hf : exists q, nth_error (hd_fits st) j = Some q /\ q = F1 (h_get (hd_heap st) r')).
  { clear - Sc Hj. revert j Hj. induction Sc as [|a q l l' (Hq & _) Sc IH]; intros [|j] Hj; simpl in *; try discriminate; [injection Hj as <-; eauto|eauto]. }
  destruct Hf as (q & Hq & Eq).
  assert (Cmb : forall (l : list ref) (fs : list Q) a b, nth_error l j = Some a -> nth_error fs j = Some b -> In (a, b) (combine l fs)).
  { clear. induction j as [|j IH]; intros [|x l] [|f fs] a b H1 H2; simpl in *; try discriminate; [injection H1 as <-; injection H2 as <-; auto|right; auto]. }
  destruct (p2_proc p).
  - unfold h_new in E. rewrite map_length in E. injection E as E1 E2 E3. subst pop.
    assert (Hs : nth_error (seq (length h) (length (hd_pop st))) j = Some (length h + j)).
    { assert (Lj : j < length (hd_pop st)) by (apply nth_error_Some; congruence). rewrite (nth_error_nth' _ 0) by (rewrite seq_length; auto). rewrite seq_nth by auto. reflexivity. }
    exists (length h + j, q). split; [apply Cmb; auto|]. cbn [snd]. subst q. exact Q1.
  - injection E as E1 E2 E3. subst pop. exists (r', q). split; [apply Cmb; auto|]. cbn [snd]. subst q. exact Q1.
Qed.

Context (xs : list (list Q)) (sz re steps : nat).
Hypothesis RE : 1 <= re.
Hypothesis Mu : 1 <= p2_mu p (p2_npop p).

Lemma gen_de drs g k st st' : st_ok m fit p xs sz re k st -> p2_gen expf cosf pwf m fit p re steps drs g st = Some st' ->
  exists pop, ps_pops st' = ps_pops st ++ [pop] /\
   (forall r, In r (ps_de st) -> exists xq, In xq (de_part p pop) /\ (F1 (h_get (ps_heap st) r) <= snd xq)%Q) /\
   (forall xq, In xq (de_part p pop) -> exists r, In r (ps_de st') /\ (snd xq <= F1 (h_get (ps_heap st') r))%Q).
Proof.
  intros [Hh Hg Hd Hw (Rr & Rs & Rn) Hm Hs (Lp & Lh) Hp Hb Hx Hf Hidle Hc] E. unfold p2_gen in E.
  assert (Sh : no_sharing_trouble p) by (right; exact K).
  destruct (gwo_mod_ok expf m fit p W D N N1 N2 (p2_gens (p2_npop p) (p2_nwolves p) * re) (pd_gwo (drs g)) (ps_heap st) (ps_gwo st)) as (h1 & gp & s1 & E1 & D1); try tauto.
  { apply (gens_pos p); auto. }
  rewrite E1 in E. cbn [bind] in E. pose proof D1 as (Lg & L1 & F1h & Fs1 & Fg & K1). specialize (K1 Sh).
  assert (Rd1 : Forall (fun r => r < length h1) (ps_de st)). { destruct Hd as (_ & Hd). eapply Forall_impl; [|exact Hd]. cbn beta. intros r Hr. lia. }
  destruct (de_mod_ok expf m fit p W D N re (pd_de (drs g)) h1 (ps_de st)) as (h2 & dp & s2 & E2 & D2); try tauto.
  rewrite E2 in E. cbn [bind] in E. pose proof D2 as (Ld & L2 & F2h & Fs2 & Fd & K2). specialize (K2 Sh).
  destruct (woa_mod_ok expf cosf m fit p W D N N1 N2 (p2_gens (p2_npop p) (p2_nwhales p) * re) (pd_woa (drs g)) h2 (ps_woa st)) as (h3 & wp & s3 & E3 & D3); try tauto.
  { apply (gens_pos p); auto. }
  { destruct Hw as (_ & Hw). eapply Forall_impl; [|exact Hw]. cbn beta. intros r Hr. lia. }
  rewrite E3 in E. cbn [bind] in E. pose proof D3 as (Lw & L3 & F3h & Fs3 & Fw & K3). specialize (K3 Sh).
  apply bind_Some in E. destruct E as (mem1 & E4 & E). apply bind_Some in E. destruct E as ((mem2 & ((ng & nd) & nw)) & E5 & E).
  destruct (sample_greedy mem2 1) as [mem3 top]. apply bind_Some in E. destruct E as (b & E6 & E). injection E as <-. cbn [ps_pops ps_de ps_heap].
  set (val := fun rq : ref * Q => (h_get h3 (fst rq), snd rq)).
  assert (Ep : de_part p (map val gp ++ map val dp ++ map val wp) = map val dp).
  { unfold de_part. rewrite skipn_app, skipn_all2 by (rewrite map_length; lia). rewrite map_length, Lg, Nat.sub_diag. cbn [skipn app].
    rewrite firstn_app, firstn_all2 by (rewrite map_length; lia). rewrite map_length, Ld, Nat.sub_diag, firstn_O, app_nil_r. reflexivity. }
  eexists. split; [reflexivity|]. rewrite Ep. split.
  - intros r Hr. destruct (de_mod_elite re (pd_de (drs g)) h1 (ps_de st) h2 dp s2 Rd1 F1h RE E2 r Hr) as (rq & Hrq & Q1).
    exists (val rq). split; [apply in_map; auto|]. cbn [snd val].
    assert (Hr0 : r < length (ps_heap st)). { destruct Hd as (_ & Hd). rewrite Forall_forall in Hd. apply Hd; auto. }
    rewrite (F1_veq m fit Resp _ _ (K1 r Hr0)). exact Q1.
  - intros xq Hxq. apply in_map_iff in Hxq. destruct Hxq as (rq & <- & Hrq). cbn [snd val].
    destruct (select_best dp (p2_mu p (p2_npop p)) rq Mu Hrq) as (rb & Hrb & Q1).
    unfold p2_resample in E5. apply bind_Some in E5. destruct E5 as ((ma & ra) & _ & E5). apply bind_Some in E5. destruct E5 as ((mb & rb') & _ & E5).
    apply bind_Some in E5. destruct E5 as ((mc & rc) & _ & E5). injection E5 as _ _ Ed _. exists (fst rb). split.
    + rewrite <- Ed. apply in_app_iff. left. apply in_map. exact Hrb.
    + apply select_in in Hrb. pose proof Fd as Fd'. rewrite Forall_forall in Fd'. destruct (Fd' rb Hrb) as (A & B & _).
      rewrite <- (F1_veq m fit Resp _ _ (K3 _ A)). rewrite <- B. exact Q1.
Qed.

Definition elite (st : p2_state) : Prop :=
  (forall z, In z (de_offered p xs (ps_pops st) (length (ps_pops st))) -> exists r, In r (ps_de st) /\ (F1 z <= F1 (h_get (ps_heap st) r))%Q) /\
  (forall i pop, nth_error (ps_pops st) i = Some pop -> forall z, In z (de_offered p xs (ps_pops st) i) -> exists xq, In xq (de_part p pop) /\ (F1 z <= snd xq)%Q).

Lemma de_offered_old pops x k : k <= length pops -> de_offered p xs (pops ++ [x]) k = de_offered p xs pops k.
Proof. intros H. unfold de_offered. rewrite firstn_app. replace (k - length pops) with 0 by lia. rewrite firstn_O, app_nil_r. reflexivity. Qed.
Lemma de_offered_snoc pops x : de_offered p xs (pops ++ [x]) (length (pops ++ [x])) = de_offered p xs pops (length pops) ++ map fst (de_part p x).
Proof. unfold de_offered. rewrite !firstn_all, map_app, concat_app, map_app, app_assoc. cbn [map concat]. rewrite app_nil_r. reflexivity. Qed.

Lemma elite_step drs g k st st' : st_ok m fit p xs sz re k st -> st_ok m fit p xs sz re (S k) st' ->
  p2_gen expf cosf pwf m fit p re steps drs g st = Some st' -> elite st -> elite st'.
Proof.
  intros H H' E (A & B). destruct (gen_de drs g k st st' H E) as (pop & Ep & C1 & C2). unfold elite. rewrite Ep.
  assert (New : forall z, In z (de_offered p xs (ps_pops st) (length (ps_pops st))) -> exists xq, In xq (de_part p pop) /\ (F1 z <= snd xq)%Q).
  { intros z Hz. destruct (A z Hz) as (r & Hr & Q1). destruct (C1 r Hr) as (xq & Hxq & Q2). exists xq. split; auto. lra. }
  split.
  - intros z Hz. rewrite de_offered_snoc in Hz. apply in_app_iff in Hz. destruct Hz as [Hz|Hz].
    + destruct (New z Hz) as (xq & Hxq & Q1). destruct (C2 xq Hxq) as (r & Hr & Q2). exists r. split; auto. lra.
    + apply in_map_iff in Hz. destruct Hz as ((x & q) & <- & Hz). destruct (C2 _ Hz) as (r & Hr & Q2). exists r. split; auto. cbn [fst snd] in *.
      destruct (ok_pops _ _ _ _ _ _ _ _ H' pop) as (_ & P2). { rewrite Ep. apply in_app_iff. right. left. auto. }
      destruct (P2 x q) as (_ & Eq & _). { unfold de_part in Hz. apply in_firstn in Hz. rewrite <- (firstn_skipn (p2_nwolves p) pop). apply in_app_iff. auto. }
      rewrite <- Eq. exact Q2.
  - intros i po Hpo z Hz. destruct (Nat.lt_ge_cases i (length (ps_pops st))) as [Hl|Hl].
    + rewrite nth_error_app1 in Hpo by auto. rewrite de_offered_old in Hz by lia. eapply B; eauto.
    + rewrite nth_error_app2 in Hpo by auto. destruct (i - length (ps_pops st)) as [|j] eqn:Ej; [|destruct j; discriminate Hpo].
      simpl in Hpo. injection Hpo as <-. assert (i = length (ps_pops st)) by lia. subst i. rewrite de_offered_old in Hz by lia. auto.
Qed.
End E.
