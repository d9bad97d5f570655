From Coq Require Import List Arith Bool Lia.
From Verif Require Import VR_Model VR_Spec.
Import ListNotations.

Lemma fop_app : forall {X} (R : X -> X -> Prop) l x, ForallOrdPairs R (l ++ [x]) <-> ForallOrdPairs R l /\ Forall (fun w => R w x) l.
Proof.
  induction l as [|y l IH]; intros x; cbn [app].
  - split; intros H; [split; constructor|]. constructor; constructor.
  - split.
    + intros H. inversion H as [|a b H1 H2]; subst. apply IH in H2. destruct H2 as [H2 H3]. rewrite Forall_app in H1. destruct H1 as [H1 H4].
      split; constructor; auto. inversion H4; assumption.
    + intros [H H']. inversion H as [|a b H1 H2]; subst. inversion H' as [|a b H3 H4]; subst. constructor; [|apply IH; auto].
      apply Forall_app. split; [exact H1|constructor; [exact H3|constructor]].
Qed.
Section Lists.
Context {A : Type}.
Variables (l : list (call A)) (c : call A).
Lemma nth_old : forall i, i < length l -> nth_error (l ++ [c]) i = nth_error l i.
Proof. intros. apply nth_error_app1. assumption. Qed.
Lemma nth_new : nth_error (l ++ [c]) (length l) = Some c.
Proof. rewrite nth_error_app2, Nat.sub_diag by lia. reflexivity. Qed.
Lemma firstn_old : forall t, t <= length l -> firstn t (l ++ [c]) = firstn t l.
Proof. intros t H. rewrite firstn_app. replace (t - length l) with 0 by lia. cbn [firstn]. apply app_nil_r. Qed.
Lemma firstn_new : firstn (S (length l)) (l ++ [c]) = l ++ [c].
Proof. apply firstn_all2. rewrite app_length. cbn. lia. Qed.
Lemma steps_old : forall t, t <= length l -> steps (l ++ [c]) t = steps l t.
Proof. intros t H. unfold steps. rewrite firstn_old by exact H. reflexivity. Qed.
Lemma steps_new : steps (l ++ [c]) (S (length l)) = steps l (length l) + match c with Step _ => 1 | Reset => 0 end.
Proof. unfold steps. rewrite firstn_new, firstn_all, filter_app, app_length. destruct c; reflexivity. Qed.
End Lists.

Section Grow.
Context {A : Type}.
Variables (trigger : nat -> bool) (L : nat).
Notation videos := (videos trigger L).
Variables (l : list (call A)) (c : call A) (ws : list (nat * nat)).
(** Every video so far is over. *)
Hypothesis Hv : videos l ws.
Let T := length l.
Lemma old_begins : forall t m, In (t, m) ws -> nth_error (l ++ [c]) (t - 1) = Some Reset \/ (exists a, nth_error (l ++ [c]) (t - 1) = Some (Step a)) /\ trigger (steps (l ++ [c]) t) = true.
Proof.
  intros t m H. pose proof (v_time _ _ _ _ Hv t m H) as B. rewrite nth_old by (fold T in B |- *; lia). rewrite steps_old by lia. apply (v_begins _ _ _ _ Hv t m H).
Qed.
Lemma old_steps : forall t m j, In (t, m) ws -> t < j -> j <= t + m -> exists a, nth_error (l ++ [c]) (j - 1) = Some (Step a).
Proof.
  intros t m j H A1 A2. pose proof (v_time _ _ _ _ Hv t m H) as B. rewrite nth_old by lia. apply (v_steps _ _ _ _ Hv t m j H A1 A2).
Qed.
Lemma old_reset : forall t, 1 <= t -> t <= T -> nth_error (l ++ [c]) (t - 1) = Some Reset -> exists m, In (t, m) ws.
Proof. intros t H1 H2 H. rewrite nth_old in H by (fold T; lia). apply (v_reset _ _ _ _ Hv t H1 H). Qed.
Lemma old_trigger : forall t a, 1 <= t -> t <= T -> nth_error (l ++ [c]) (t - 1) = Some (Step a) -> trigger (steps (l ++ [c]) t) = true -> exists t0 m, In (t0, m) ws /\ t0 <= t <= t0 + m.
Proof. intros t a H1 H2 H Ht. rewrite nth_old in H by (fold T; lia). rewrite steps_old in Ht by exact H2. apply (v_trigger _ _ _ _ Hv t a H1 H Ht). Qed.
Lemma new_index : forall t x, nth_error (l ++ [c]) (t - 1) = Some x -> 1 <= t -> t <= T \/ t = S T /\ x = c.
Proof.
  intros t x H H1. destruct (le_gt_dec t T) as [B|B]; [left; exact B|right].
  assert (t - 1 < length (l ++ [c])) by (apply nth_error_Some; congruence). rewrite app_length in H0. cbn in H0. fold T in H0.
  assert (E : t = S T) by lia. split; [exact E|]. subst t. replace (S T - 1) with (length l) in H by (fold T; lia). rewrite nth_new in H. congruence.
Qed.
Hypothesis Hover : forall t m, In (t, m) ws -> m = full L \/ nth_error (l ++ [c]) (t + m) = Some Reset.
Lemma grow_none : forall a, c = Step a -> trigger (steps l T + 1) = false -> videos (l ++ [c]) ws.
Proof.
  intros a Hc Ht. constructor.
  - intros t m H. pose proof (v_time _ _ _ _ Hv t m H). rewrite app_length. lia.
  - apply old_begins.
  - apply old_steps.
  - apply (v_length _ _ _ _ Hv).
  - intros t m H. destruct (Hover t m H); auto.
  - apply (v_order _ _ _ _ Hv).
  - intros t H1 H. destruct (new_index t _ H H1) as [B|[_ B]]; [apply old_reset; auto|congruence].
  - intros t x H1 H Hx. destruct (new_index t _ H H1) as [B|[B Hb]]; [eapply old_trigger; eauto|].
    exfalso. subst t. unfold T in Hx. rewrite steps_new, Hc in Hx. fold T in Hx. congruence.
Qed.
Lemma grow_new : c = Reset \/ (exists a, c = Step a) /\ trigger (steps l T + 1) = true -> videos (l ++ [c]) (ws ++ [(S T, 0)]).
Proof.
  intros Hc.
  assert (I : forall t m, In (t, m) (ws ++ [(S T, 0)]) -> In (t, m) ws \/ t = S T /\ m = 0).
  { intros t m H. apply in_app_or in H. destruct H as [H|[H|[]]]; [left; exact H|right]. injection H as <- <-. auto. }
  constructor.
  - intros t m H. rewrite app_length. cbn [length]. fold T. destruct (I _ _ H) as [H'|[-> ->]]; [|lia]. pose proof (v_time _ _ _ _ Hv t m H') as B. fold T in B. lia.
  - intros t m H. destruct (I _ _ H) as [H'|[-> ->]]; [eapply old_begins; eauto|]. replace (S T - 1) with (length l) by (fold T; lia). rewrite nth_new.
    unfold T. rewrite steps_new. fold T. destruct Hc as [->|[[a ->] Ht]]; [left; reflexivity|right]. split; [exists a; reflexivity|exact Ht].
  - intros t m j H A1 A2. destruct (I _ _ H) as [H'|[-> ->]]; [eapply old_steps; eauto|lia].
  - intros t m H. destruct (I _ _ H) as [H'|[-> ->]]; [apply (v_length _ _ _ _ Hv _ _ H')|lia].
  - intros t m H. destruct (I _ _ H) as [H'|[-> ->]]; [destruct (Hover t m H'); auto|]. right. right. rewrite app_length. cbn [length]. fold T. lia.
  - apply fop_app. split; [apply (v_order _ _ _ _ Hv)|]. apply Forall_forall. intros [t m] H. cbn [fst snd]. pose proof (v_time _ _ _ _ Hv t m H) as B. fold T in B. lia.
  - intros t H1 H. destruct (new_index t _ H H1) as [B|[-> _]]; [destruct (old_reset t H1 B H) as [m Hm]; exists m; apply in_or_app; left; exact Hm|].
    exists 0. apply in_or_app. right. left. reflexivity.
  - intros t x H1 H Hx. destruct (new_index t _ H H1) as [B|[-> Hb]].
    + destruct (old_trigger t x H1 B H Hx) as [t0 [m [Hm Hr]]]. exists t0, m. split; [apply in_or_app; left; exact Hm|exact Hr].
    + exists (S T), 0. split; [apply in_or_app; right; left; reflexivity|lia].
Qed.
End Grow.
Lemma grow_more : forall {A} trigger L (l : list (call A)) a ws t0, videos trigger L l (ws ++ [(t0, length l - t0)]) -> 1 <= t0 -> t0 <= length l -> length l - t0 < full L ->
  (forall t m, In (t, m) ws -> m = full L \/ nth_error (l ++ [Step a]) (t + m) = Some Reset) ->
  videos trigger L (l ++ [Step a]) (ws ++ [(t0, S (length l) - t0)]).
Proof.
  intros A trigger L l a ws t0 Hv Ht1 Ht2 Hm Hover. set (T := length l) in *.
  assert (I : forall t m, In (t, m) (ws ++ [(t0, S T - t0)]) -> In (t, m) ws \/ t = t0 /\ m = S T - t0).
  { intros t m H. apply in_app_or in H. destruct H as [H|[H|[]]]; [left; exact H|right]. injection H as <- <-. auto. }
  assert (O : forall t m, In (t, m) ws -> In (t, m) (ws ++ [(t0, T - t0)])) by (intros; apply in_or_app; left; assumption).
  assert (O0 : In (t0, T - t0) (ws ++ [(t0, T - t0)])) by (apply in_or_app; right; left; reflexivity).
  constructor.
  - intros t m H. rewrite app_length. cbn [length]. fold T. destruct (I _ _ H) as [H'|[-> ->]]; [|lia]. pose proof (v_time _ _ _ _ Hv t m (O _ _ H')) as B. fold T in B. lia.
  - intros t m H. destruct (I _ _ H) as [H'|[-> ->]]; [exact (old_begins trigger L l (Step a) _ Hv t m (O _ _ H'))|exact (old_begins trigger L l (Step a) _ Hv t0 _ O0)].
  - intros t m j H A1 A2. destruct (I _ _ H) as [H'|[-> ->]]; [exact (old_steps trigger L l (Step a) _ Hv t m j (O _ _ H') A1 A2)|].
    destruct (le_gt_dec j T) as [B|B]; [apply (old_steps trigger L l (Step a) _ Hv t0 (T - t0) j O0); lia|].
    exists a. replace (j - 1) with (length l) by (fold T; lia). apply nth_new.
  - intros t m H. destruct (I _ _ H) as [H'|[-> ->]]; [apply (v_length _ _ _ _ Hv _ _ (O _ _ H'))|lia].
  - intros t m H. destruct (I _ _ H) as [H'|[-> ->]]; [destruct (Hover t m H'); auto|]. right. right. rewrite app_length. cbn [length]. fold T. lia.
  - pose proof (v_order _ _ _ _ Hv) as B. apply fop_app in B. destruct B as [B1 B2]. apply fop_app. split; [exact B1|]. exact B2.
  - intros t H1 H. destruct (new_index l (Step a) t _ H H1) as [B|[_ B]]; [|discriminate].
    destruct (old_reset trigger L l (Step a) _ Hv t H1 B H) as [m Hi]. apply in_app_or in Hi. destruct Hi as [Hi|[Hi|[]]].
    + exists m. apply in_or_app. left. exact Hi.
    + injection Hi as <- <-. exists (S T - t0). apply in_or_app. right. left. reflexivity.
  - intros t x H1 H Hx. destruct (new_index l (Step a) t _ H H1) as [B|[-> Hb]].
    + destruct (old_trigger trigger L l (Step a) _ Hv t x H1 B H Hx) as [t1 [m [Hi Hr]]]. apply in_app_or in Hi. destruct Hi as [Hi|[Hi|[]]].
      * exists t1, m. split; [apply in_or_app; left; exact Hi|exact Hr].
      * injection Hi as <- <-. exists t0, (S T - t0). split; [apply in_or_app; right; left; reflexivity|fold T in B; lia].
    + exists t0, (S T - t0). split; [apply in_or_app; right; left; reflexivity|fold T; lia].
Qed.

Section Run.
Context {E A F : Type}.
Variables (reset : E -> E) (step : E -> A -> E) (render : E -> F) (trigger : nat -> bool) (L : nat).
Notation run := (run reset step render trigger L).
Notation at_time := (at_time reset step).
(** The name and the frames of a video. *)
Definition content (e : E) (l : list (call A)) (w : nat * nat) : nat * list F :=
  (steps l (fst w), map (fun j => render (at_time e l j)) (seq (fst w) (S (snd w)))).
Lemma time_old : forall e l c t, t <= length l -> at_time e (l ++ [c]) t = at_time e l t.
Proof. intros. unfold VR_Spec.at_time. rewrite firstn_old by assumption. reflexivity. Qed.
Lemma time_new : forall e l c, at_time e (l ++ [c]) (S (length l)) = apply reset step (at_time e l (length l)) c.
Proof. intros. unfold VR_Spec.at_time. rewrite firstn_new, firstn_all, fold_left_app. reflexivity. Qed.
Lemma content_old : forall e l c t m, t + m <= length l -> content e (l ++ [c]) (t, m) = content e l (t, m).
Proof.
  intros. unfold content. cbn [fst snd]. rewrite steps_old by lia. f_equal. apply map_ext_in. intros j Hj. apply in_seq in Hj. rewrite time_old by lia. reflexivity.
Qed.
Lemma contents_old : forall e l c ws, (forall t m, In (t, m) ws -> t + m <= length l) -> map (content e (l ++ [c])) ws = map (content e l) ws.
Proof. intros. apply map_ext_in. intros [t m] Hin. apply content_old. auto. Qed.
Definition window (T : nat) (cur : option nat) : list (nat * nat) := match cur with Some t0 => [(t0, T - t0)] | None => [] end.
Definition inv (e : E) (l : list (call A)) (r : recorder) (ws : list (nat * nat)) (cur : option nat) : Prop :=
  env r = at_time e l (length l) /\ step_id r = steps l (length l) /\ files r = rev (map (content e l) ws) /\
  video r = option_map (fun t0 => content e l (t0, length l - t0)) cur /\
  (forall t0, cur = Some t0 -> recorded_frames r = S (length l - t0) /\ 1 <= t0 /\ t0 <= length l /\ length l - t0 < full L) /\
  videos trigger L l (ws ++ window (length l) cur) /\
  (forall t m, In (t, m) ws -> m = full L \/ nth_error l (t + m) = Some Reset).
Lemma inv_init : forall e, inv e [] (init e) [] None.
Proof.
  intros e. unfold inv. cbn. repeat split; try reflexivity; try contradiction; try discriminate.
  - constructor.
  - intros t _ H. destruct (t - 1); discriminate.
  - intros t a _ H. destruct (t - 1); discriminate.
Qed.
Lemma run_app : forall e l c, run e (l ++ [c]) = perform reset step render trigger L (run e l) c.
Proof. intros. unfold VR_Model.run. rewrite fold_left_app. reflexivity. Qed.
Lemma content_new : forall e l c t0, t0 <= length l ->
  content e (l ++ [c]) (t0, S (length l) - t0) = (fst (content e l (t0, length l - t0)), snd (content e l (t0, length l - t0)) ++ [render (apply reset step (at_time e l (length l)) c)]).
Proof.
  intros e l c t0 H. unfold content. cbn [fst snd]. rewrite steps_old by exact H. f_equal.
  replace (S (S (length l) - t0)) with (S (length l - t0) + 1) by lia. rewrite seq_app, map_app. f_equal.
  - apply map_ext_in. intros j Hj. apply in_seq in Hj. rewrite time_old by lia. reflexivity.
  - replace (t0 + S (length l - t0)) with (S (length l)) by lia. cbn [seq map]. rewrite time_new. reflexivity.
Qed.
Lemma content_start : forall e l c, content e (l ++ [c]) (S (length l), 0) = (steps (l ++ [c]) (S (length l)), [render (apply reset step (at_time e l (length l)) c)]).
Proof. intros. unfold content. cbn [fst snd seq map]. rewrite time_new. reflexivity. Qed.
Lemma in_time : forall e l r ws cur, inv e l r ws cur -> forall t m, In (t, m) ws -> t + m <= length l.
Proof. intros e l r ws cur (_ & _ & _ & _ & _ & Hv & _) t m H. apply (v_time _ _ _ _ Hv t m). apply in_or_app. left. exact H. Qed.
Lemma nth_snoc : forall {X} (l : list X) c i x, nth_error l i = Some x -> nth_error (l ++ [c]) i = Some x.
Proof. intros. rewrite nth_error_app1; [assumption|]. apply nth_error_Some. congruence. Qed.
Lemma inv_step : forall e l r ws cur c, inv e l r ws cur -> exists ws' cur', inv e (l ++ [c]) (perform reset step render trigger L r c) ws' cur'.
Proof.
  intros e l r ws cur c Hi. pose proof (in_time _ _ _ _ _ Hi) as Hin. destruct Hi as (He & Hs & Hf & Hvd & Hcur & Hv & Hover).
  assert (Len : length (l ++ [c]) = S (length l)) by (rewrite app_length; cbn; lia).
  assert (Ov : forall t m, In (t, m) ws -> m = full L \/ nth_error (l ++ [c]) (t + m) = Some Reset).
  { intros t m H. destruct (Hover t m H) as [H'|H']; [left; exact H'|right; apply nth_snoc; exact H']. }
  destruct c as [|a]; cbn [perform].
  - (* reset *) exists (ws ++ window (length l) cur), (Some (S (length l))).
    assert (Hall : forall t m, In (t, m) (ws ++ window (length l) cur) -> t + m <= length l).
    { intros t m H. apply (v_time _ _ _ _ Hv t m H). }
    unfold inv. rewrite Len. unfold start_video_recorder, close_video_recorder. cbn [env step_id video recorded_frames files].
    rewrite He, Hs, time_new. cbn [apply]. rewrite steps_new, Nat.add_0_r. split; [reflexivity|]. split; [reflexivity|]. split; [|split; [|split; [|split]]].
    + rewrite contents_old by exact Hall. rewrite Hf, Hvd. destruct cur as [t0|]; cbn [option_map window]; [rewrite map_app, rev_app_distr; reflexivity|rewrite app_nil_r; reflexivity].
    + cbn [option_map]. rewrite Nat.sub_diag, content_start, steps_new, Nat.add_0_r. reflexivity.
    + intros t0 H. injection H as <-. unfold full. lia.
    + cbn [window]. rewrite Nat.sub_diag. apply grow_new; auto. intros t m H. apply in_app_or in H. destruct H as [H|H]; [apply Ov; exact H|].
      destruct cur as [t0|]; [|contradiction]. destruct H as [H|[]]. injection H as <- <-. right. destruct (Hcur t0 eq_refl) as (_ & _ & B & _).
      replace (t0 + (length l - t0)) with (length l) by lia. apply nth_new.
    + intros t m H. apply in_app_or in H. destruct H as [H|H]; [apply Ov; exact H|].
      destruct cur as [t0|]; [|contradiction]. destruct H as [H|[]]. injection H as <- <-. right. destruct (Hcur t0 eq_refl) as (_ & _ & B & _).
      replace (t0 + (length l - t0)) with (length l) by lia. apply nth_new.
  - rewrite Hvd. destruct cur as [t0|]; cbn [option_map].
    + destruct (Hcur t0 eq_refl) as (Hc & B1 & B2 & B3). cbn [window] in Hv. pose proof (grow_more trigger L l a ws t0 Hv B1 B2 B3 Ov) as G.
      unfold content at 1. cbn [fst snd]. cbn [recorded_frames]. rewrite Hc.
      destruct (Nat.ltb_spec L (S (S (length l - t0)))) as [B|B].
      * exists (ws ++ [(t0, S (length l) - t0)]), None. unfold inv. rewrite Len. unfold close_video_recorder. cbn [env step_id video recorded_frames files].
        rewrite He, Hs, time_new, steps_new, Nat.add_1_r. split; [reflexivity|]. split; [reflexivity|]. split; [|split; [reflexivity|split; [discriminate|split]]].
        -- rewrite map_app, rev_app_distr. cbn [map rev app]. rewrite content_new by exact B2. rewrite contents_old by exact Hin. rewrite Hf. reflexivity.
        -- cbn [window]. rewrite app_nil_r. exact G.
        -- intros t m H. apply in_app_or in H. destruct H as [H|[H|[]]]; [apply Ov; exact H|]. injection H as <- <-. left. unfold full in *. destruct t0 as [|t0]; [lia|]. cbn [Nat.sub]. lia.
      * exists ws, (Some t0). unfold inv. rewrite Len. cbn [env step_id video recorded_frames files].
        rewrite He, Hs, time_new, steps_new, Nat.add_1_r. split; [reflexivity|]. split; [reflexivity|]. split; [|split; [|split; [|split]]].
        -- rewrite contents_old by exact Hin. exact Hf.
        -- cbn [option_map]. rewrite content_new by exact B2. reflexivity.
        -- intros t H. injection H as <-. unfold full in *. lia.
        -- exact G.
        -- exact Ov.
    + cbn [window] in Hv. rewrite app_nil_r in Hv. destruct (trigger (S (step_id r))) eqn:Et.
      * exists ws, (Some (S (length l))). unfold inv. rewrite Len. unfold start_video_recorder, close_video_recorder. cbn [env step_id video recorded_frames files].
        rewrite He, Hs, time_new, steps_new, Nat.add_1_r. split; [reflexivity|]. split; [reflexivity|]. split; [|split; [|split; [|split]]].
        -- rewrite contents_old by exact Hin. exact Hf.
        -- cbn [option_map]. rewrite Nat.sub_diag, content_start, steps_new, Nat.add_1_r. reflexivity.
        -- intros t0 H. injection H as <-. unfold full. lia.
        -- cbn [window]. rewrite Nat.sub_diag. apply grow_new; auto. right. split; [exists a; reflexivity|]. rewrite Nat.add_1_r, <- Hs. exact Et.
        -- exact Ov.
      * exists ws, None. unfold inv. rewrite Len. cbn [env step_id video recorded_frames files].
        rewrite He, Hs, time_new, steps_new, Nat.add_1_r. split; [reflexivity|]. split; [reflexivity|]. split; [|split; [reflexivity|split; [discriminate|split]]].
        -- rewrite contents_old by exact Hin. exact Hf.
        -- cbn [window]. rewrite app_nil_r. apply (grow_none trigger L l (Step a) ws Hv Ov a eq_refl). rewrite Nat.add_1_r, <- Hs. exact Et.
        -- exact Ov.
Qed.
Lemma inv_run : forall e l, exists ws cur, inv e l (run e l) ws cur.
Proof.
  intros e l. induction l as [|c l IH] using rev_ind; [exists [], None; apply inv_init|].
  destruct IH as (ws & cur & H). rewrite run_app. apply (inv_step e l _ ws cur c H).
Qed.
(** After close every video is in its file. *)
Lemma all_videos : forall e l, exists ws, videos trigger L l ws /\ files (close (run e l)) = rev (map (content e l) ws).
Proof.
  intros e l. destruct (inv_run e l) as (ws & cur & Hi). destruct Hi as (He & Hs & Hf & Hvd & Hcur & Hv & Hover).
  exists (ws ++ window (length l) cur). split; [exact Hv|]. unfold close, close_video_recorder. cbn [files]. rewrite Hvd, Hf.
  destruct cur as [t0|]; cbn [option_map window]; [rewrite map_app, rev_app_distr; reflexivity|rewrite app_nil_r; reflexivity].
Qed.
Lemma transparent : forall e l, env (run e l) = fold_left (apply reset step) l e.
Proof. intros e l. destruct (inv_run e l) as (ws & cur & Hi). destruct Hi as (He & _). rewrite He. unfold VR_Spec.at_time. rewrite firstn_all. reflexivity. Qed.
End Run.

(** ** The list of videos is determined *)
Section Facts.
Context {A : Type}.
Variables (trigger : nat -> bool) (L : nat) (l : list (call A)) (ws : list (nat * nat)).
Hypothesis Hv : videos trigger L l ws.
Lemma steps_S : forall t c, nth_error l t = Some c -> steps l (S t) = steps l t + match c with Step _ => 1 | Reset => 0 end.
Proof.
  intros t c H. destruct (nth_error_split l t H) as (p & q & E & Hp). unfold steps.
  assert (E1 : firstn (S t) l = p ++ [c]).
  { rewrite E, <- Hp. replace (S (length p)) with (length p + 1) by lia. rewrite firstn_app_2. reflexivity. }
  assert (E2 : firstn t l = p).
  { rewrite E, <- Hp. rewrite <- (Nat.add_0_r (length p)). rewrite firstn_app_2. cbn [firstn]. apply app_nil_r. }
  rewrite E1, E2, filter_app, app_length. destruct c; reflexivity.
Qed.
Lemma steps_in : forall t m j, In (t, m) ws -> j <= m -> steps l (t + j) = steps l t + j.
Proof.
  intros t m j Hin. induction j as [|j IH]; intros Hj; [rewrite !Nat.add_0_r; reflexivity|].
  pose proof (v_time _ _ _ _ Hv t m Hin) as B.
  destruct (v_steps _ _ _ _ Hv t m (t + S j) Hin ltac:(lia) ltac:(lia)) as [a Ha]. replace (t + S j - 1) with (t + j) in Ha by lia.
  replace (t + S j) with (S (t + j)) by lia. rewrite (steps_S _ _ Ha). rewrite IH by lia. lia.
Qed.
Lemma fop_pairs : forall t m t' m', In (t, m) ws -> In (t', m') ws -> t < t' -> t + m < t'.
Proof.
  pose proof (v_order _ _ _ _ Hv) as O. intros t m t' m' H H' Hlt.
  assert (B : forall u k, In (u, k) ws -> 1 <= u /\ u + k <= length l) by (intros; eapply (v_time _ _ _ _ Hv); eauto). clear Hv.
  induction O as [|[u k] r F O IH]; [contradiction|]. rewrite Forall_forall in F.
  destruct H as [H|H]; destruct H' as [H'|H'].
  - injection H as -> ->. injection H' as -> ->. lia.
  - injection H as -> ->. apply (F (t', m') H').
  - injection H' as -> ->. pose proof (F (t, m) H) as Q. cbn [fst snd] in Q. lia.
  - apply IH; auto. intros x y Hxy. apply B. right. exact Hxy.
Qed.
Lemma same_start : forall t m m', In (t, m) ws -> In (t, m') ws -> m = m'.
Proof.
  pose proof (v_order _ _ _ _ Hv) as O. clear Hv. intros t m m' H H'.
  induction O as [|[u k] r F O IH]; [contradiction|]. rewrite Forall_forall in F.
  destruct H as [H|H]; destruct H' as [H'|H']; try congruence.
  - injection H as -> ->. pose proof (F (t, m') H') as Q. cbn [fst snd] in Q. lia.
  - injection H' as -> ->. pose proof (F (t, m) H) as Q. cbn [fst snd] in Q. lia.
  - apply IH; auto.
Qed.
End Facts.
