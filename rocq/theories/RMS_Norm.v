From Coq Require Import List Arith ZArith QArith Lia Lqa Bool Permutation.
From Verif Require Import Base BaseFacts Opt_Model Opt_Facts Opt_Facts2 RMS_Model RMS_Spec RMS_Proofs.
Import ListNotations.
Open Scope nat_scope.

Lemma map2_combine {A B C} (f : A -> B -> C) : forall a b, map2 f a b = map (fun xy => f (fst xy) (snd xy)) (combine a b).
Proof. induction a as [|x a IH]; intros [|y b]; simpl; f_equal; auto. Qed.

Section Norm.
Context (sqrtf : Q -> Q) (p : vpar) (n k : nat).
Hypothesis N : 0 < n.

Definition vinv (w : Q) (oseen : list (list Q)) (rseen : list Q) (st : vnorm) : Prop :=
  exact_stats w k oseen (v_obs st) /\ exact_stats w 1 (map (fun x => [x]) rseen) (v_rrms st) /\ length (v_ret st) = n.

Lemma rows1_ok (l : list Q) : length l = n -> batch_ok 1 (map (fun x => [x]) l).
Proof.
  intros L. split.
  - intros Z. apply (f_equal (@length _)) in Z. rewrite map_length in Z. simpl in Z. lia.
  - apply Forall_forall. intros r Hr. apply in_map_iff in Hr. destruct Hr as (x & <- & _). reflexivity.
Qed.
Lemma obs_ok obs : length obs = n -> Forall (fun r : list Q => length r = k) obs -> batch_ok k obs.
Proof. intros L F. split; auto. intros ->. simpl in L. lia. Qed.

Lemma update_reward_ok w rr rseen ret rews rr' ret' : (0 <= w)%Q -> exact_stats w 1 (map (fun x => [x]) rseen) rr ->
  update_reward p rr ret rews = Some (rr', ret') ->
  ret' = map (fun ar => fst ar * vp_gamma p + snd ar)%Q (combine ret rews) /\
  exact_stats w 1 (map (fun x => [x]) (rseen ++ ret')) rr'.
Proof.
  intros Hw E H. unfold update_reward in H. apply bind_Some in H. destruct H as (r & H & E2). inversion E2; subst.
  rewrite map2_combine in *. split; [reflexivity|]. rewrite map_app. eapply update_exact; eauto.
Qed.
Lemma update_reward_total rr ret rews : length (r_mean rr) = 1 -> length ret = n -> length rews = n ->
  exists rr' ret', update_reward p rr ret rews = Some (rr', ret').
Proof.
  intros L1 L2 L3. unfold update_reward. destruct (update_total rr 1 (map (fun x => [x]) (map2 (fun a r => a * vp_gamma p + r)%Q ret rews)) L1) as (rr' & E & _).
  { apply rows1_ok. rewrite map2_combine, map_length, combine_length. lia. }
  rewrite E. cbn [bind]. eauto.
Qed.

Lemma step_inv w oseen rseen st e st' out : (0 <= w)%Q -> vp_train p = true -> event_ok n k e -> vinv w oseen rseen st -> vn_step sqrtf p st e = Some (st', out) ->
  match e with
  | Stepped obs rews news =>
      let now := map (fun ar => fst ar * vp_gamma p + snd ar)%Q (combine (v_ret st) rews) in
      vinv w (oseen ++ obs) (rseen ++ now) st' /\ v_ret st' = map (fun xd : Q * bool => if snd xd then 0%Q else fst xd) (combine now news)
  | Resetted _ => vinv w oseen (rseen ++ map (fun _ => 0%Q) (v_ret st)) st' /\ Forall2 Qeq (v_ret st') (map (fun _ => 0%Q) (v_ret st))
  end.
Proof.
  intros Hw T EV (I1 & I2 & I3) H. destruct e as [obs rews news|obs]; cbn [vn_step] in H; rewrite T in H.
  - apply bind_Some in H. destruct H as (orms & E1 & H). apply bind_Some in H. destruct H as ([rr ret] & E2 & H). inversion H; subst; clear H.
    destruct (update_reward_ok _ _ _ _ _ _ _ Hw I2 E2) as (-> & I2'). cbv zeta. unfold vinv. cbn [v_obs v_rrms v_ret].
    rewrite map2_combine. split; [|reflexivity].
    split; [eapply update_exact; eauto|]. split; auto. rewrite map_length, combine_length, map_length, combine_length. destruct EV as (_ & L2 & L3 & _). lia.
  - apply bind_Some in H. destruct H as ([rr ret] & E2 & H). inversion H; subst; clear H.
    destruct (update_reward_ok _ _ _ _ _ _ _ Hw I2 E2) as (-> & I2'). unfold vinv. cbn [v_obs v_rrms v_ret].
    assert (Z : forall l : list Q, Forall2 Qeq (map (fun ar => fst ar * vp_gamma p + snd ar)%Q (combine (map (fun _ => 0%Q) l) (map (fun _ => 0%Q) l))) (map (fun _ => 0%Q) l)).
    { induction l; simpl; constructor; auto. ring. }
    assert (Y : length (map (fun ar => fst ar * vp_gamma p + snd ar)%Q (combine (map (fun _ => 0%Q) (v_ret st)) (map (fun _ => 0%Q) (v_ret st)))) = n).
    { rewrite map_length, combine_length, !map_length. lia. }
    split; [|apply Z]. split; auto. split; auto.
    (* counted zeros are computed as 0*gamma+0 *)
    clear - I2' Z. destruct I2' as (A & B & C & D). split; auto. split; auto. split.
    + rewrite C. rewrite !map_length, !app_length, !map_length, combine_length, !map_length, Nat.min_id. reflexivity.
    + intros j m v Hm Hv. specialize (D j m v Hm Hv). rewrite pooled_iff in *.
      assert (Q1 : forall a b : list Q, Forall2 Qeq a b -> (rsum a == rsum b /\ rsum (map sq a) == rsum (map sq b))%Q /\ length a = length b).
      { clear. induction 1 as [|x y a b H _ IH]; simpl; [split; [split; reflexivity|auto]|]. destruct IH as ((I1 & I2) & I3).
        split; [|congruence]. split; [rewrite H, I1; reflexivity|]. unfold sq at 1 3. rewrite H, I2. reflexivity. }
      match type of D with context [column j (map _ (_ ++ ?l))] => set (ret := l) in * end.
      assert (Q2 : Forall2 Qeq (column j (map (fun x => [x]) (rseen ++ ret))) (column j (map (fun x => [x]) (rseen ++ map (fun _ => 0%Q) (v_ret st))))).
      { unfold column. rewrite !map_map. rewrite !map_app. apply Forall2_app.
        - clear. induction rseen; simpl; constructor; auto. reflexivity.
        - specialize (Z (v_ret st)). fold ret in Z. clear - Z. induction Z; simpl; constructor; auto. destruct j as [|[|]]; simpl; auto; reflexivity. }
      destruct (Q1 _ _ Q2) as ((E1 & E2) & E3). rewrite E1, E2, E3 in D. exact D.
Qed.

(** The counted returns depend on the returns so far only through their values. *)
Lemma returns_compat g es : forall a b, Forall2 Qeq a b -> Forall2 Qeq (returns_seen g a es) (returns_seen g b es).
Proof.
  induction es as [|e es IH]; intros a b H; cbn [returns_seen]; [constructor|]. destruct e as [obs rews news|obs].
  - assert (X : Forall2 Qeq (map (fun ar => fst ar * g + snd ar)%Q (combine a rews)) (map (fun ar => fst ar * g + snd ar)%Q (combine b rews))).
    { revert rews. induction H as [|x y a b Hxy _ IHf]; intros [|r rews]; simpl; constructor; auto. rewrite Hxy. reflexivity. }
    apply Forall2_app; auto. apply IH. revert news. induction X as [|x y a' b' Hxy _ IHf]; intros [|d news]; simpl; constructor; auto.
    destruct d; auto. reflexivity.
  - assert (X : Forall2 Qeq (map (fun _ => 0%Q) a) (map (fun _ => 0%Q) b)).
    { induction H; simpl; constructor; auto. reflexivity. }
    apply Forall2_app; auto.
Qed.
Lemma exact_compat w xs ys st : Forall2 Qeq xs ys -> exact_stats w 1 (map (fun x => [x]) xs) st -> exact_stats w 1 (map (fun x => [x]) ys) st.
Proof.
  intros F (A & B & C & D). split; auto. split; auto. split.
  - rewrite C. rewrite !map_length. replace (length ys) with (length xs) by (clear - F; induction F; simpl; auto). reflexivity.
  - intros j m v Hm Hv. specialize (D j m v Hm Hv). rewrite pooled_iff in *.
    assert (Q1 : forall a b : list Q, Forall2 Qeq a b -> (rsum a == rsum b /\ rsum (map sq a) == rsum (map sq b))%Q /\ length a = length b).
    { clear. induction 1 as [|x y a b H _ IH]; simpl; [split; [split; reflexivity|auto]|]. destruct IH as ((I1 & I2) & I3).
      split; [|congruence]. split; [rewrite H, I1; reflexivity|]. unfold sq at 1 3. rewrite H, I2. reflexivity. }
    assert (Q2 : Forall2 Qeq (column j (map (fun x => [x]) xs)) (column j (map (fun x => [x]) ys))).
    { unfold column. rewrite !map_map. clear - F. induction F; simpl; constructor; auto. destruct j as [|[|]]; simpl; auto; reflexivity. }
    destruct (Q1 _ _ Q2) as ((E1 & E2) & E3). rewrite E1, E2, E3 in D. exact D.
Qed.

Lemma vrun_inv w : (0 <= w)%Q -> vp_train p = true -> forall es st st' outs oseen rseen, Forall (event_ok n k) es -> vinv w oseen rseen st ->
  vn_run sqrtf p st es = Some (st', outs) ->
  exact_stats w k (oseen ++ step_obs es) (v_obs st') /\
  exact_stats w 1 (map (fun x => [x]) (rseen ++ returns_seen (vp_gamma p) (v_ret st) es)) (v_rrms st').
Proof.
  intros Hw T. induction es as [|e es IH]; intros st st' outs oseen rseen F I H; cbn [vn_run] in H.
  - inversion H; subst. unfold step_obs. simpl. rewrite !app_nil_r. destruct I as (A & B & _). auto.
  - inversion F as [|? ? EV F']; subst. apply bind_Some in H. destruct H as ([st1 o] & H1 & H). apply bind_Some in H. destruct H as ([st2 os] & H2 & H). inversion H; subst; clear H.
    pose proof (step_inv _ _ _ _ _ _ _ Hw T EV I H1) as S1. destruct e as [obs rews news|obs].
    + cbv zeta in S1. destruct S1 as (I1 & ER). destruct (IH _ _ _ _ _ F' I1 H2) as (A & B). cbn [returns_seen]. unfold step_obs in *. cbn [map concat].
      rewrite !app_assoc. split; auto. rewrite <- ER. exact B.
    + destruct S1 as (I1 & ER). destruct (IH _ _ _ _ _ F' I1 H2) as (A & B). cbn [returns_seen]. unfold step_obs in *. cbn [map concat]. split; auto.
      eapply exact_compat; [|exact B]. rewrite app_assoc. apply Forall2_app.
      * clear. induction (rseen ++ map (fun _ : Q => 0%Q) (v_ret st)); constructor; auto. reflexivity.
      * apply returns_compat. exact ER.
Qed.

Theorem vn_exact es st outs : vp_train p = true -> Forall (event_ok n k) es -> vn_run sqrtf p (vnorm_new n k) es = Some (st, outs) ->
  exact_stats rms_eps k (step_obs es) (v_obs st) /\
  exact_stats rms_eps 1 (map (fun x => [x]) (returns_seen (vp_gamma p) (repeat 0%Q n) es)) (v_rrms st).
Proof.
  intros T F H. refine (vrun_inv rms_eps ltac:(unfold rms_eps; lra) T es _ _ _ [] [] F _ H). split; [apply new_exact|]. split; [apply new_exact|]. apply repeat_length.
Qed.

Lemma vrun_total es : forall st, length (r_mean (v_obs st)) = k -> length (r_mean (v_rrms st)) = 1 -> length (v_ret st) = n -> Forall (event_ok n k) es ->
  exists r, vn_run sqrtf p st es = Some r.
Proof.
  induction es as [|e es IH]; intros st L1 L2 L3 F; cbn [vn_run]; [eauto|]. pose proof (Forall_inv F) as EV. pose proof (Forall_inv_tail F) as F'.
  assert (X : exists st1 o, vn_step sqrtf p st e = Some (st1, o) /\ length (r_mean (v_obs st1)) = length (r_mean (v_obs st)) /\ length (r_mean (v_rrms st1)) = 1 /\ length (v_ret st1) = length (v_ret st)).
  { destruct e as [obs rews news|obs]; cbn [vn_step].
    - destruct EV as (A & B & C & D).
      assert (X1 : exists o, (if vp_train p then rms_update (v_obs st) obs else Some (v_obs st)) = Some o /\ length (r_mean o) = length (r_mean (v_obs st))).
      { destruct (vp_train p); [|eauto]. rewrite L1. apply update_total; auto. apply obs_ok; auto. }
      destruct X1 as (o & E1 & Lo). rewrite E1. cbn [bind].
      assert (X2 : exists rr ret, (if vp_train p then update_reward p (v_rrms st) (v_ret st) rews else Some (v_rrms st, v_ret st)) = Some (rr, ret) /\ length (r_mean rr) = 1 /\ length ret = length (v_ret st)).
      { destruct (vp_train p); [|eauto]. destruct (update_reward_total (v_rrms st) (v_ret st) rews L2 L3 B) as (rr & ret & E). exists rr, ret. split; auto.
        unfold update_reward in E. apply bind_Some in E. destruct E as (r & E & E'). injection E' as <- <-. split.
        - unfold rms_update in E. destruct (_ || _) in E; [discriminate|]. inversion E; subst. cbn [r_mean]. rewrite map_length, seq_length. auto.
        - rewrite map2_combine, map_length, combine_length. lia. }
      destruct X2 as (rr & ret & E2 & Lr & Lt). rewrite E2. cbn [bind]. do 2 eexists. split; [reflexivity|]. cbn [v_obs v_rrms v_ret]. split; auto. split; auto.
      rewrite map2_combine, map_length, combine_length. lia.
    - set (zero := map (fun _ => 0%Q) (v_ret st)). assert (Lz : length zero = n) by (unfold zero; rewrite map_length; auto).
      assert (X2 : exists rr ret, (if vp_train p then update_reward p (v_rrms st) zero zero else Some (v_rrms st, zero)) = Some (rr, ret) /\ length (r_mean rr) = 1 /\ length ret = length (v_ret st)).
      { destruct (vp_train p); [|exists (v_rrms st), zero; repeat split; auto; congruence].
        destruct (update_reward_total (v_rrms st) zero zero L2 Lz Lz) as (rr & ret & E). exists rr, ret. split; auto.
        unfold update_reward in E. apply bind_Some in E. destruct E as (r & E & E'). injection E' as <- <-. split.
        - unfold rms_update in E. destruct (_ || _) in E; [discriminate|]. inversion E; subst. cbn [r_mean]. rewrite map_length, seq_length. auto.
        - rewrite map2_combine, map_length, combine_length. lia. }
      destruct X2 as (rr & ret & E2 & Lr & Lt). rewrite E2. cbn [bind]. do 2 eexists. split; [reflexivity|]. cbn [v_obs v_rrms v_ret]. auto. }
  destruct X as (st1 & o & E & A & B & C). rewrite E. cbn [bind]. destruct (IH st1) as ([st2 os] & E2); auto; try congruence.
  rewrite E2. cbn [bind]. eauto.
Qed.
Theorem vn_total es : Forall (event_ok n k) es -> exists r, vn_run sqrtf p (vnorm_new n k) es = Some r.
Proof. apply vrun_total; apply repeat_length. Qed.
End Norm.

(** Without training the statistics stay. *)
Lemma vn_frozen sqrtf p es : vp_train p = false -> forall st st' outs, vn_run sqrtf p st es = Some (st', outs) -> v_obs st' = v_obs st /\ v_rrms st' = v_rrms st.
Proof.
  intros T. induction es as [|e es IH]; intros st st' outs H; cbn [vn_run] in H; [inversion H; subst; auto|].
  apply bind_Some in H. destruct H as ([st1 o] & H1 & H). apply bind_Some in H. destruct H as ([st2 os] & H2 & H). inversion H; subst; clear H.
  assert (v_obs st1 = v_obs st /\ v_rrms st1 = v_rrms st).
  { destruct e; cbn [vn_step] in H1; rewrite T in H1; cbn [bind] in H1; inversion H1; subst; cbn [v_obs v_rrms]; auto. }
  destruct (IH _ _ _ H2). destruct H. split; congruence.
Qed.

Lemma qmin2_spec a b : (qmin2 a b <= a /\ qmin2 a b <= b /\ (qmin2 a b == a \/ qmin2 a b == b))%Q.
Proof. unfold qmin2. destruct (Qle_bool a b) eqn:E; qprop; (split; [lra|split; [lra|]]); first [left; reflexivity|right; reflexivity]. Qed.
Lemma qmax2_spec a b : (a <= qmax2 a b /\ b <= qmax2 a b /\ (qmax2 a b == a \/ qmax2 a b == b))%Q.
Proof. unfold qmax2. destruct (Qle_bool b a) eqn:E; qprop; (split; [lra|split; [lra|]]); first [left; reflexivity|right; reflexivity]. Qed.
Lemma np_clip_within x c : (0 <= c)%Q -> within c (np_clip x (- c) c).
Proof.
  intros H. unfold np_clip, within. destruct (qmax2_spec x (- c)) as (A & B & C). destruct (qmin2_spec (qmax2 x (- c)) c) as (D & E & F).
  split; destruct F; lra.
Qed.
Lemma np_clip_mono x y c : (x <= y)%Q -> (np_clip x (- c) c <= np_clip y (- c) c)%Q.
Proof.
  intros H. unfold np_clip. destruct (qmax2_spec x (- c)) as (A & B & C). destruct (qmin2_spec (qmax2 x (- c)) c) as (D & E & F).
  destruct (qmax2_spec y (- c)) as (A' & B' & C'). destruct (qmin2_spec (qmax2 y (- c)) c) as (D' & E' & F'). destruct C, F, C', F'; lra.
Qed.

Lemma normalize_within sqrtf p st obs : vp_nobs p = true -> (0 <= vp_cobs p)%Q -> Forall (Forall (within (vp_cobs p))) (normalize_obs sqrtf p st obs).
Proof.
  intros T C. unfold normalize_obs. rewrite T. apply Forall_forall. intros row Hr. apply in_map_iff in Hr. destruct Hr as (r & <- & _).
  rewrite map2_combine. apply Forall_forall. intros x Hx. apply in_map_iff in Hx. destruct Hx as ([a [b c]] & <- & _). apply np_clip_within; auto.
Qed.
Lemma normalize_rew_within sqrtf p st rews : vp_nrew p = true -> (0 <= vp_crew p)%Q -> Forall (within (vp_crew p)) (normalize_reward sqrtf p st rews).
Proof.
  intros T C. unfold normalize_reward. rewrite T. apply Forall_forall. intros x Hx. apply in_map_iff in Hx. destruct Hx as (r & <- & _). apply np_clip_within; auto.
Qed.
Theorem vn_within sqrtf p es : vp_nobs p = true -> vp_nrew p = true -> (0 <= vp_cobs p)%Q -> (0 <= vp_crew p)%Q ->
  forall st st' outs, vn_run sqrtf p st es = Some (st', outs) ->
  Forall (fun o => Forall (Forall (within (vp_cobs p))) (fst o) /\ Forall (within (vp_crew p)) (snd o)) outs.
Proof.
  intros T1 T2 C1 C2. induction es as [|e es IH]; intros st st' outs H; cbn [vn_run] in H; [inversion H; subst; constructor|].
  apply bind_Some in H. destruct H as ([st1 o] & H1 & H). apply bind_Some in H. destruct H as ([st2 os] & H2 & H). inversion H; subst; clear H.
  constructor; [|eapply IH; eauto]. destruct e as [obs rews news|obs]; cbn [vn_step] in H1.
  - apply bind_Some in H1. destruct H1 as (o1 & _ & H1). apply bind_Some in H1. destruct H1 as ([rr ret] & _ & H1). inversion H1; subst. cbn [fst snd].
    split; [apply normalize_within; auto|apply normalize_rew_within; auto].
  - apply bind_Some in H1. destruct H1 as ([rr ret] & _ & H1). inversion H1; subst. cbn [fst snd]. split; [apply normalize_within; auto|constructor].
Qed.

(** Normalisation keeps the order of the rewards and of each coordinate of the observations. *)
Lemma div_mono a b s : (0 < s)%Q -> (a <= b)%Q -> (a / s <= b / s)%Q.
Proof. intros Hs H. unfold Qdiv. apply Qmult_le_compat_r; auto. apply Qlt_le_weak, Qinv_lt_0_compat. auto. Qed.
Theorem normalize_order sqrtf p st a b : (forall x, (0 < x)%Q -> (0 < sqrtf x)%Q) -> Forall (fun v => 0 < v + vp_eps p)%Q (r_var st) ->
  Forall2 Qle a b -> Forall2 (Forall2 Qle) (normalize_obs sqrtf p st [a]) (normalize_obs sqrtf p st [b]).
Proof.
  intros SQ F H. unfold normalize_obs. destruct (vp_nobs p); [|repeat constructor; auto]. constructor; [|constructor].
  generalize (r_mean st). intros ms. remember (r_var st) as vs eqn:E. clear E. revert ms vs F. induction H as [|x y a b Hxy _ IH]; intros ms vs F; simpl; [constructor|].
  destruct ms as [|m ms]; [constructor|]. destruct vs as [|v vs]; [constructor|]. inversion F; subst. simpl. constructor; [|apply IH; auto].
  apply np_clip_mono. apply div_mono; [apply SQ; auto|]. lra.
Qed.
Theorem normalize_rew_order sqrtf p st a b : (forall x, (0 < x)%Q -> (0 < sqrtf x)%Q) -> (0 < nth 0 (r_var st) 0 + vp_eps p)%Q ->
  Forall2 Qle a b -> Forall2 Qle (normalize_reward sqrtf p st a) (normalize_reward sqrtf p st b).
Proof.
  intros SQ P H. unfold normalize_reward. destruct (vp_nrew p); auto. induction H; simpl; constructor; auto.
  apply np_clip_mono. apply div_mono; auto.
Qed.

Lemma np_clip_clamped x c : (0 <= c)%Q -> clamped c x (np_clip x (- c) c).
Proof.
  intros H. unfold clamped, within. destruct (Qlt_le_dec c x) as [A|A]; [right; left|destruct (Qlt_le_dec x (- c)) as [B|B]; [right; right|left]];
    unfold np_clip; destruct (qmax2_spec x (- c)) as (A1 & B1 & C1); destruct (qmin2_spec (qmax2 x (- c)) c) as (D1 & E1 & F1);
    repeat split; auto; destruct C1, F1; lra.
Qed.
Lemma nth_error_map2 {A B C} (f : A -> B -> C) : forall a b j, nth_error (map2 f a b) j = match nth_error a j, nth_error b j with Some x, Some y => Some (f x y) | _, _ => None end.
Proof.
  induction a as [|x a IH]; intros [|y b] [|j]; simpl; auto. destruct (nth_error a j); auto.
Qed.
Lemma nth_error_combine {A B} : forall (a : list A) (b : list B) j x y, nth_error a j = Some x -> nth_error b j = Some y -> nth_error (combine a b) j = Some (x, y).
Proof. induction a as [|x a IH]; intros [|y b] [|j] x' y' H H'; simpl in *; try discriminate; [congruence|auto]. Qed.

(** What the last event of a run returns, in terms of the statistics after it. *)
Theorem vn_value sqrtf p es e st0 st outs : vn_run sqrtf p st0 (es ++ [e]) = Some (st, outs) ->
  vp_nobs p = true -> (0 <= vp_cobs p)%Q ->
  v_old st = event_obs e /\
  exists o r, nth_error outs (length es) = Some (o, r) /\ length o = length (event_obs e) /\
    forall i row j x m v, nth_error (event_obs e) i = Some row -> nth_error row j = Some x -> nth_error (r_mean (v_obs st)) j = Some m -> nth_error (r_var (v_obs st)) j = Some v ->
      exists orow y, nth_error o i = Some orow /\ nth_error orow j = Some y /\ clamped (vp_cobs p) ((x - m) / sqrtf (v + vp_eps p)%Q)%Q y.
Proof.
  intros H T C. revert st0 outs H. induction es as [|e' es IH]; intros st0 outs H; cbn [app vn_run] in H; apply bind_Some in H; destruct H as ([st1 o] & H1 & H);
    apply bind_Some in H; destruct H as ([st2 os] & H2 & H); injection H as E1 E2; subst st2 outs.
  - injection H2 as E1 E2. subst st1 os. cbn [nth_error length].
    assert (X : v_old st = event_obs e /\ fst o = normalize_obs sqrtf p (v_obs st) (event_obs e)).
    { destruct e as [obs rews news|obs]; cbn [vn_step] in H1.
      - apply bind_Some in H1. destruct H1 as (o1 & _ & H1). apply bind_Some in H1. destruct H1 as ([rr ret] & _ & H1). inversion H1; subst. auto.
      - apply bind_Some in H1. destruct H1 as ([rr ret] & _ & H1). inversion H1; subst. auto. }
    destruct X as [X1 X2]. split; auto. destruct o as [o r]. exists o, r. split; auto. cbn [fst] in X2. subst o. unfold normalize_obs. rewrite T.
    split; [apply map_length|]. intros i row j x m v Hr Hx Hm Hv.
    eexists. eexists. split; [rewrite nth_error_map, Hr; reflexivity|]. split.
    + rewrite nth_error_map2, Hx, (nth_error_combine _ _ _ _ _ Hm Hv). reflexivity.
    + apply np_clip_clamped. auto.
  - destruct (IH _ _ H2) as (A & o' & r' & B). split; auto. exists o', r'. exact B.
Qed.
(** The same for the rewards of a step. *)
Theorem vn_reward_value sqrtf p es obs rews news st0 st outs : vn_run sqrtf p st0 (es ++ [Stepped obs rews news]) = Some (st, outs) ->
  vp_nrew p = true -> (0 <= vp_crew p)%Q ->
  v_oldr st = rews /\
  exists o r, nth_error outs (length es) = Some (o, r) /\
    Forall2 (fun x y => clamped (vp_crew p) (x / sqrtf (nth 0 (r_var (v_rrms st)) 0%Q + vp_eps p)%Q)%Q y) rews r.
Proof.
  intros H T C. revert st0 outs H. induction es as [|e' es IH]; intros st0 outs H; cbn [app vn_run] in H; apply bind_Some in H; destruct H as ([st1 o] & H1 & H);
    apply bind_Some in H; destruct H as ([st2 os] & H2 & H); injection H as E1 E2; subst st2 outs.
  - injection H2 as E1 E2. subst st1 os. cbn [nth_error length vn_step] in *.
    apply bind_Some in H1. destruct H1 as (o1 & _ & H1). apply bind_Some in H1. destruct H1 as ([rr ret] & _ & H1). inversion H1; subst. cbn [v_oldr v_rrms].
    split; auto. do 2 eexists. split; [reflexivity|]. unfold normalize_reward. rewrite T. clear - C. induction rews; simpl; constructor; auto.
    apply np_clip_clamped. auto.
  - destruct (IH _ _ H2) as (A & o' & r' & B). split; auto. exists o', r'. exact B.
Qed.
