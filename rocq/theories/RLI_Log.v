(** Proofs about the RL logger. *)
From Coq Require Import String List Arith ZArith QArith Bool Permutation Lia Lqa.
From Verif Require Import Base BaseFacts Space_Model Opt_Model Opt_Spec Opt_Facts Opt_Facts2 RLI_Model RLI_Spec.
Import ListNotations.
Open Scope nat_scope.

Section Log.
Context {X : Type} (m : mode) (freq : nat) (F : freq <> 0).

Lemma log_app es e : forall s, log_run m freq s (es ++ [e]) = bind (log_run (X := X) m freq s es) (fun s' => log_step m freq s' e).
Proof.
  induction es as [|a es IH]; intros s; cbn [app log_run].
  - cbn [bind]. destruct (log_step m freq s e); reflexivity.
  - destruct (log_step m freq s a) as [s'|]; cbn [bind]; auto.
Qed.

Lemma every_snoc {A} (l : list A) a : every freq (l ++ [a]) = every freq l ++ (if S (length l) mod freq =? 0 then [a] else []).
Proof.
  unfold every. rewrite app_length. cbn [length]. rewrite seq_app. cbn [seq Nat.add].
  assert (E : forall (u : list nat) (v : list A) i b, length u = length v -> combine (u ++ [i]) (v ++ [b]) = combine u v ++ [(i, b)]).
  { induction u; destruct v; simpl; intros; try discriminate; auto. rewrite IHu; auto. }
  rewrite E by apply seq_length. rewrite filter_app, map_app. cbn [filter fst].
  destruct (S (length l) mod freq =? 0); reflexivity.
Qed.

(** State after a run. *)
Definition log_inv (es : list (rlstep X)) (s : rlog X) (ps : list (X * Q)) : Prop :=
  Forall2 first_env (every freq es) ps /\ lg_calls s = length es /\
  lg_x s = map fst ps /\ lg_r s = map (fun xr => as_max m (snd xr)) ps /\
  match lg_max s with
  | None => ps = [] /\ lg_best s = None
  | Some (x, r) => lg_best s = Some (as_max m r) /\
      exists i, nth_error ps i = Some (x, r) /\
        forall j y q, nth_error ps j = Some (y, q) -> (q <= r)%Q /\ (j < i -> (q < r)%Q)
  end.

Lemma log_inv_run es : forall s, log_run m freq log_init es = Some s -> exists ps, log_inv es s ps.
Proof.
  induction es as [|e es IH] using rev_ind; intros s H.
  - inversion H; subst. exists []. split; [constructor|]. repeat split; auto.
  - rewrite log_app in H. apply bind_Some in H. destruct H as (s0 & H0 & H).
    destruct (IH _ H0) as (ps & I1 & I2 & I3 & I4 & I5). unfold log_step in H.
    destruct (Nat.eqb_spec freq 0) as [|_]; [lia|]. rewrite I2 in H.
    unfold log_inv. rewrite every_snoc, app_length. cbn [length].
    destruct (S (length es) mod freq =? 0).
    + apply bind_Some in H. destruct H as (r & Hr & H). apply bind_Some in H. destruct H as (x & Hx & H).
      inversion H; subst s. clear H. cbn [lg_calls lg_x lg_r lg_max lg_best].
      exists (ps ++ [(x, r)]). split; [|split; [lia|]].
      { apply Forall2_app; auto. constructor; [|constructor]. split; auto. }
      split; [rewrite I3, map_app; reflexivity|]. split; [rewrite I4, map_app; destruct m; reflexivity|].
      assert (NL : forall j y q, nth_error (ps ++ [(x, r)]) j = Some (y, q) -> nth_error ps j = Some (y, q) \/ (j = length ps /\ q = r)).
      { intros j y q Hj. destruct (Nat.lt_ge_cases j (length ps)).
        - rewrite nth_error_app1 in Hj by auto. auto.
        - rewrite nth_error_app2 in Hj by auto. destruct (j - length ps) as [|[|]] eqn:E; simpl in Hj; try discriminate.
          right. inversion Hj; subst. split; auto. lia. }
      destruct (lg_max s0) as [[x0 r0]|].
      * destruct I5 as (I5 & i & Hi & I6). destruct (Qltb r0 r) eqn:E; qprop.
        -- split; [destruct m; reflexivity|]. exists (length ps). split.
           { rewrite nth_error_app2, Nat.sub_diag by lia. reflexivity. }
           intros j y q Hj. destruct (NL _ _ _ Hj) as [Hj'|[-> ->]].
           ++ destruct (I6 _ _ _ Hj') as [A _]. split; [lra|]. intros _. lra.
           ++ split; [apply Qle_refl|lia].
        -- split; auto. exists i. assert (i < length ps) by (apply nth_error_Some; congruence). split.
           { rewrite nth_error_app1; auto. }
           intros j y q Hj. destruct (NL _ _ _ Hj) as [Hj'|[-> ->]]; [eauto|]. split; [auto|lia].
      * destruct I5 as [-> I5]. split; [destruct m; reflexivity|]. exists 0. split; [reflexivity|].
        intros j y q Hj. destruct (NL _ _ _ Hj) as [Hj'|[-> ->]]; [destruct j; discriminate|]. split; [apply Qle_refl|simpl; lia].
    + inversion H; subst s. clear H. cbn [lg_calls lg_x lg_r lg_max lg_best]. rewrite app_nil_r.
      exists ps. do 4 (split; [auto; lia|]). exact I5.
Qed.

Lemma log_total es : (forall e, In e es -> rs_rewards e <> [] /\ rs_infos e <> []) -> forall s, exists s', log_run (X := X) m freq s es = Some s'.
Proof.
  induction es as [|e es IH]; intros H s; cbn [log_run]; eauto.
  assert (exists s', log_step m freq s e = Some s') as (s' & ->).
  { unfold log_step. destruct (Nat.eqb_spec freq 0); [lia|]. destruct (_ =? 0); eauto.
    destruct (H e) as [A B]; [simpl; auto|]. destruct (rs_rewards e); [congruence|]. destruct (rs_infos e); [congruence|].
    cbn [nth_error bind]. eauto. }
  cbn [bind]. apply IH. intros x Hx. apply H. simpl; auto.
Qed.
End Log.

Lemma log_history {X} m freq es s : 1 <= freq -> log_run (X := X) m freq log_init es = Some s ->
  exists ps, Forall2 first_env (every freq es) ps /\ lg_calls s = length es /\
    lg_x s = map fst ps /\ lg_r s = map (fun xr => as_max m (snd xr)) ps.
Proof.
  intros F H. destruct (log_inv_run m freq ltac:(lia) es s H) as (ps & I1 & I2 & I3 & I4 & _). exists ps. auto.
Qed.

Lemma log_best {X} m freq (fit : X -> Q) es s : 1 <= freq -> log_run m freq log_init es = Some s ->
  (forall e xr, In e es -> first_env e xr -> snd xr = as_max m (fit (fst xr))) ->
  lg_r s = map (fun x => as_max m (as_max m (fit x))) (lg_x s) /\
  (lg_x s = [] -> lg_max s = None /\ lg_best s = None) /\
  (lg_x s <> [] -> exists x r y, lg_max s = Some (x, r) /\ lg_best s = Some y /\ best_of m fit (lg_x s) x y /\
     exists i, nth_error (lg_x s) i = Some x /\ forall j z, j < i -> nth_error (lg_x s) j = Some z -> ~ (fit z == y)%Q).
Proof.
  intros F H R. destruct (log_inv_run m freq ltac:(lia) es s H) as (ps & I1 & I2 & I3 & I4 & I5).
  assert (P : Forall (fun xr => snd xr = as_max m (fit (fst xr))) ps).
  { assert (E : forall e, In e (every freq es) -> In e es).
    { intros e He. unfold every in He. apply in_map_iff in He. destruct He as ((i & e') & <- & He).
      apply filter_In in He. destruct He as [He _]. apply in_combine_r in He. exact He. }
    clear - R I1 E. revert E. induction I1 as [|e xr l l' He I1 IH]; intros E; constructor.
    - eapply R; [apply E; simpl; auto|auto].
    - apply IH; auto. intros; apply E; simpl; auto. }
  split; [|split].
  - rewrite I3, I4, map_map. apply map_ext_in. intros xr Hx. rewrite Forall_forall in P. rewrite (P xr Hx). reflexivity.
  - rewrite I3. intros E. apply map_eq_nil in E. subst ps. destruct (lg_max s) as [[x r]|]; [|tauto].
    destruct I5 as (_ & i & Hi & _). destruct i; discriminate.
  - rewrite I3. intros E. destruct (lg_max s) as [[x r]|]; [|destruct I5 as [-> _]; simpl in E; congruence].
    destruct I5 as (I5 & i & Hi & I6). exists x, r, (as_max m r). split; auto. split; auto.
    assert (EX : r = as_max m (fit x)). { rewrite Forall_forall in P. apply (P (x, r)). eapply nth_error_In; eauto. }
    assert (PJ : forall j z, nth_error (map fst ps) j = Some z -> exists q, nth_error ps j = Some (z, q) /\ q = as_max m (fit z)).
    { intros j z Hj. rewrite nth_error_map in Hj. destruct (nth_error ps j) as [[z' q]|] eqn:Ej; [|discriminate].
      inversion Hj; subst. exists q. split; auto. rewrite Forall_forall in P. apply (P (z, q)). eapply nth_error_In; eauto. }
    split.
    + split; [apply in_map_iff; exists (x, r); split; auto; eapply nth_error_In; eauto|]. split.
      * rewrite EX, as_max_invol. reflexivity.
      * intros z Hz. apply In_nth_error in Hz. destruct Hz as [j Hj]. destruct (PJ _ _ Hj) as (q & Hq & Eq).
        apply as_max_good. rewrite as_max_invol, <- Eq. apply (I6 _ _ _ Hq).
    + exists i. split; [rewrite nth_error_map, Hi; reflexivity|]. intros j z Lj Hj C.
      destruct (PJ _ _ Hj) as (q & Hq & Eq). destruct (I6 _ _ _ Hq) as [_ Lt]. specialize (Lt Lj).
      rewrite Eq in Lt. destruct m; cbn [as_max] in *; lra.
Qed.

Lemma log_zero {X} m e es : log_run (X := X) m 0 log_init (e :: es) = None.
Proof. reflexivity. Qed.

Lemma groups_spec {A} N : 1 <= N -> forall fuel (l : list A), length l <= fuel -> grouped N l (groups fuel N l).
Proof.
  intros HN. induction fuel as [|k IH]; intros l L.
  - destruct l; [|simpl in L; lia]. split; [reflexivity|]. intros [|i] g H; discriminate.
  - destruct l as [|a l]; [split; [reflexivity|]; intros [|i] g H; discriminate|].
    cbn [groups]. set (l1 := a :: l) in *. assert (L1 : 1 <= length l1) by (simpl; lia).
    destruct (IH (skipn N l1)) as [G1 G2]. { rewrite skipn_length. lia. }
    split.
    + cbn [concat]. rewrite G1. apply firstn_skipn.
    + intros [|i] g H.
      * cbn [nth_error] in H. inversion H; subst g. rewrite firstn_length. split; [lia|]. cbn [length]. intros Hl.
        destruct (skipn N l1) eqn:E.
        { destruct k; simpl in Hl; lia. }
        assert (length (skipn N l1) <> 0) by (rewrite E; simpl; lia). rewrite skipn_length in *. lia.
      * cbn [nth_error] in H. destruct (G2 _ _ H) as [A1 A2]. split; auto. cbn [length]. intros. apply A2. lia.
Qed.

Lemma cumavg data N a b c : calc_cumavg data N = Some (a, b, c) ->
  exists gs, grouped N data gs /\ length a = length gs /\ length b = length gs /\ length c = length gs /\
  forall i g, nth_error gs i = Some g -> exists av k mx j mn,
    nth_error a i = Some av /\ (av * inject_Z (Z.of_nat (length g)) == fold_right Qplus 0 g)%Q /\
    nth_error b i = Some (Some (k, mx)) /\ greatest g mx /\ nth_error c i = Some (Some (j, mn)) /\ least g mn.
Proof.
  unfold calc_cumavg. destruct (Nat.eqb_spec N 0); [discriminate|]. intros H. inversion H; subst. clear H.
  pose proof (groups_spec N ltac:(lia) (length data) data (le_n _)) as G. set (gs := groups _ _ _) in *.
  exists gs. split; auto. rewrite !map_length. do 3 (split; [auto|]). intros i g Hg.
  destruct G as [_ G]. destruct (G _ _ Hg) as [[L _] _].
  assert (NE : g <> []) by (intros ->; simpl in L; lia).
  destruct (argmax_Some g NE) as (k & mx & E1). destruct (argmin_Some g NE) as (j & mn & E2).
  exists (qmean g), k, mx, j, mn. rewrite !nth_error_map, Hg. cbn [option_map]. rewrite E1, E2.
  split; auto. split.
  { unfold qmean. field. intros Z. unfold Qeq in Z. simpl in Z. lia. }
  apply argmax_spec in E1. apply argmin_spec in E2. destruct E1 as (A1 & A2 & _). destruct E2 as (B1 & B2 & _).
  split; auto. split; [split; [eapply nth_error_In; eauto|auto]|]. split; auto. split; [eapply nth_error_In; eauto|auto].
Qed.
