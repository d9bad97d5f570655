(** Proofs about GWO. *)
From Coq Require Import List Arith ZArith QArith Qabs Bool Lia Lqa.
From Verif Require Import Base BaseFacts Space_Model Space_Spec Space_Facts Opt_Model Opt_Spec Opt_Facts Opt_Facts2
  Pop_Model Pop_Spec Pop_Proofs Swarm_Model Swarm_Proofs GWO_Model GWO_Spec.
Import ListNotations.
Open Scope nat_scope.

Lemma among_old vals (P : Q -> Prop) e f : best_among Mmin vals P e -> (P f -> ext_le e (Fin f)) -> best_among Mmin (vals ++ [f]) P e.
Proof.
  intros H Hf. destruct e as [q|]; simpl in *.
  - destruct H as ((w & W1 & W2 & W3) & H). split; [exists w; split; [apply in_or_app; auto|auto]|].
    intros z Hz Pz. apply in_app_or in Hz. destruct Hz as [Hz|[<-|[]]]; auto. apply Hf in Pz. apply ext_le_Fin in Pz. auto.
  - intros z Hz Pz. apply in_app_or in Hz. destruct Hz as [Hz|[<-|[]]]; [eapply H; eauto|]. apply Hf in Pz. discriminate.
Qed.
Lemma among_new vals (P : Q -> Prop) f : P f -> (forall w, In w vals -> P w -> (f <= w)%Q) -> best_among Mmin (vals ++ [f]) P (Fin f).
Proof.
  intros Pf H. simpl. split; [exists f; split; [apply in_or_app; simpl; auto|split; auto; reflexivity]|].
  intros z Hz Pz. apply in_app_or in Hz. destruct Hz as [Hz|[<-|[]]]; auto. lra.
Qed.
Lemma among_iff m vals (P P' : Q -> Prop) e : (forall w, In w vals -> (P w <-> P' w)) -> best_among m vals P e -> best_among m vals P' e.
Proof.
  intros I H. destruct e as [q|]; simpl in *.
  - destruct H as ((w & W1 & W2 & W3) & H). split; [exists w; split; auto; split; auto; apply I; auto|].
    intros z Hz Pz. apply H; auto. apply I; auto.
  - intros z Hz Pz. apply (H z Hz). apply I; auto.
Qed.
Lemma among_low vals (P : Q -> Prop) e w : best_among Mmin vals P e -> In w vals -> P w -> ext_le e (Fin w).
Proof. intros H Hw Pw. destruct e as [q|]; simpl in H; [apply ext_le_Fin; apply H; auto|]. exfalso. eapply H; eauto. Qed.

Lemma ext_ltb_FF a b : ext_ltb (Fin a) (Fin b) = true <-> (a < b)%Q.
Proof. unfold ext_ltb. simpl. rewrite negb_true_iff. rewrite Qle_bool_false. tauto. Qed.
Lemma ext_ltb_FF' a b : ext_ltb (Fin a) (Fin b) = false <-> (b <= a)%Q.
Proof. unfold ext_ltb. simpl. rewrite negb_false_iff. rewrite Qle_bool_iff. tauto. Qed.

Definition pod (vals : list Q) (l : leaders) : Prop := podium Mmin vals (snd (l_alpha l)) (snd (l_beta l)) (snd (l_delta l)).

(** The bookkeeping of the three leaders keeps the three smallest distinct scores. *)
Lemma podium_step vals l x f : pod vals l -> pod (vals ++ [f]) (up_leaders l (x, f)).
Proof.
  destruct l as [[pa A] [pb B] [pd D]]. unfold pod. cbn [l_alpha l_beta l_delta snd].
  intros (HA & HB & HD). unfold up_leaders, up_alpha. cbn [fst snd l_alpha l_beta l_delta].
  destruct (ext_ltb (Fin f) A) eqn:E1.
  - (* new alpha *)
    assert (Lo : forall w, In w vals -> (f < w)%Q).
    { intros w Hw. pose proof (among_low _ _ _ w HA Hw I) as L. destruct A as [a|]; [|discriminate].
      apply ext_le_Fin in L. apply ext_ltb_FF in E1. lra. }
    unfold up_beta. cbn [l_alpha l_beta l_delta snd]. replace (ext_ltb (Fin f) (Fin f)) with false by (symmetry; apply ext_ltb_FF'; lra). cbn [andb].
    unfold up_delta. cbn [l_alpha l_beta l_delta snd]. replace (ext_ltb (Fin f) (Fin f)) with false by (symmetry; apply ext_ltb_FF'; lra). cbn [andb l_alpha l_beta l_delta snd].
    split; [|split].
    + apply among_new; auto. intros w Hw _. apply Qlt_le_weak; auto.
    + apply among_old; [|simpl; intros; lra]. eapply among_iff; [|exact HA]. intros w Hw. simpl. split; auto.
    + apply among_old; auto. intros P. destruct A as [a|]; simpl in P; [|tauto]. apply ext_ltb_FF in E1. lra.
  - destruct A as [a|]; [|unfold ext_ltb in E1; simpl in E1; discriminate]. apply ext_ltb_FF' in E1.
    unfold up_beta. cbn [l_alpha l_beta l_delta snd].
    destruct (ext_ltb (Fin a) (Fin f)) eqn:E2; cbn [andb].
    + apply ext_ltb_FF in E2. destruct (ext_ltb (Fin f) B) eqn:E3.
      * (* new beta *)
        unfold up_delta. cbn [l_alpha l_beta l_delta snd]. replace (ext_ltb (Fin f) (Fin f)) with false by (symmetry; apply ext_ltb_FF'; lra).
        rewrite andb_false_r. cbn [andb l_alpha l_beta l_delta snd].
        assert (Lo : forall w, In w vals -> (a < w)%Q -> (f < w)%Q).
        { intros w Hw Pw. pose proof (among_low _ _ _ w HB Hw Pw) as L. destruct B as [b|]; [|discriminate].
          apply ext_le_Fin in L. apply ext_ltb_FF in E3. lra. }
        split; [|split].
        -- apply among_old; auto. intros _. apply ext_le_Fin. auto.
        -- apply among_new; [exact E2|]. intros w Hw Pw. apply Qlt_le_weak. apply Lo; auto.
        -- apply among_old; [|simpl; intros; lra]. eapply among_iff; [|exact HB]. intros w Hw. simpl. split; intros; [auto|lra].
      * destruct B as [b|]; [|unfold ext_ltb in E3; simpl in E3; discriminate]. apply ext_ltb_FF' in E3.
        unfold up_delta. cbn [l_alpha l_beta l_delta snd]. replace (ext_ltb (Fin a) (Fin f)) with true by (symmetry; apply ext_ltb_FF; auto). cbn [andb].
        destruct (ext_ltb (Fin b) (Fin f)) eqn:E4; cbn [andb].
        -- apply ext_ltb_FF in E4. destruct (ext_ltb (Fin f) D) eqn:E5; cbn [l_alpha l_beta l_delta snd].
           ++ split; [|split].
              ** apply among_old; auto. intros _. apply ext_le_Fin. auto.
              ** apply among_old; auto. intros _. apply ext_le_Fin. auto.
              ** apply among_new; [exact E4|]. intros w Hw Pw. pose proof (among_low _ _ _ w HD Hw Pw) as L.
                 destruct D as [d|]; [|discriminate]. apply ext_le_Fin in L. apply ext_ltb_FF in E5. lra.
           ++ apply ext_ltb_false in E5. split; [|split]; apply among_old; auto; intros _; apply ext_le_Fin; auto.
        -- apply ext_ltb_FF' in E4. cbn [l_alpha l_beta l_delta snd]. split; [|split].
           ++ apply among_old; auto. intros _. apply ext_le_Fin. auto.
           ++ apply among_old; auto. intros _. apply ext_le_Fin. auto.
           ++ apply among_old; auto. simpl. intros. lra.
    + apply ext_ltb_FF' in E2. unfold up_delta. cbn [l_alpha l_beta l_delta snd].
      replace (ext_ltb (Fin a) (Fin f)) with false by (symmetry; apply ext_ltb_FF'; auto). cbn [andb l_alpha l_beta l_delta snd].
      split; [|split].
      * apply among_old; auto. intros _. apply ext_le_Fin. auto.
      * apply among_old; auto. simpl. intros. lra.
      * apply among_old; auto. destruct B as [b|]; simpl; [|tauto]. intros P. simpl in HB. destruct HB as ((w & W1 & W2 & W3) & _). lra.
Qed.

Lemma podium_fold pop : forall vals l, pod vals l -> pod (vals ++ map snd pop) (fold_left up_leaders pop l).
Proof.
  induction pop as [|[x f] pop IH]; intros vals l H; simpl; [rewrite app_nil_r; auto|].
  change (f :: map snd pop) with ([f] ++ map snd pop). rewrite app_assoc. apply IH. apply podium_step. auto.
Qed.

(** Leaders' positions are evaluated points with that score. *)
Definition wolf_ok (g : list Q -> Q) (dim : nat) (seen : list (list Q)) (w : wolf) : Prop :=
  length (fst w) = dim /\ match snd w with Fin q => In (fst w) seen /\ (q == g (fst w))%Q | PInf => True end.
Lemma wolf_ok_mono g dim s s' w : (forall x, In x s -> In x s') -> wolf_ok g dim s w -> wolf_ok g dim s' w.
Proof. intros H (A & B). split; auto. destruct (snd w); auto. destruct B; auto. Qed.
Definition pack_ok g dim seen l := wolf_ok g dim seen (l_alpha l) /\ wolf_ok g dim seen (l_beta l) /\ wolf_ok g dim seen (l_delta l).
Lemma pack_step g dim seen l x : length x = dim -> pack_ok g dim seen l -> pack_ok g dim (seen ++ [x]) (up_leaders l (x, g x)).
Proof.
  intros L (A & B & D).
  assert (M : forall z, In z seen -> In z (seen ++ [x])) by (intros; apply in_or_app; auto).
  assert (N : wolf_ok g dim (seen ++ [x]) (x, Fin (g x))).
  { split; auto. simpl. split; [apply in_or_app; simpl; auto|reflexivity]. }
  assert (P : forall l0, pack_ok g dim (seen ++ [x]) l0 -> pack_ok g dim (seen ++ [x]) (up_alpha l0 x (g x))).
  { intros l0 (U & V & Z). unfold up_alpha. destruct (ext_ltb _ _); repeat split; simpl; try apply U; try apply V; try apply Z; apply N. }
  assert (P2 : forall l0, pack_ok g dim (seen ++ [x]) l0 -> pack_ok g dim (seen ++ [x]) (up_beta l0 x (g x))).
  { intros l0 (U & V & Z). unfold up_beta. destruct (_ && _); repeat split; simpl; try apply U; try apply V; try apply Z; apply N. }
  assert (P3 : forall l0, pack_ok g dim (seen ++ [x]) l0 -> pack_ok g dim (seen ++ [x]) (up_delta l0 x (g x))).
  { intros l0 (U & V & Z). unfold up_delta. destruct (_ && _); repeat split; simpl; try apply U; try apply V; try apply Z; apply N. }
  unfold up_leaders. cbn [fst snd]. apply P3, P2, P.
  repeat split; try (eapply wolf_ok_mono; eauto; fail); eapply wolf_ok_mono; eauto.
Qed.
Lemma pack_fold g dim pos : forall seen l, Forall (fun x => length x = dim) pos -> pack_ok g dim seen l ->
  pack_ok g dim (seen ++ pos) (fold_left up_leaders (combine pos (map g pos)) l).
Proof.
  induction pos as [|x pos IH]; intros seen l F H; simpl; [rewrite app_nil_r; auto|]. inversion F; subst.
  change (x :: pos) with ([x] ++ pos). rewrite app_assoc. apply IH; auto. apply pack_step; auto.
Qed.

(** Mode change. *)
Lemma as_good_min m a b : (as_min m a <= as_min m b)%Q <-> as_good m a b.
Proof. apply as_min_good. Qed.
Lemma podium_mode m (fit : list Q -> Q) seen a b d : podium Mmin (map (fun x => as_min m (fit x)) seen) a b d ->
  podium m (map fit seen) (as_min_ext m a) (as_min_ext m b) (as_min_ext m d).
Proof.
  assert (G : forall P P' e, (forall w, P (as_min m w) <-> P' w) -> best_among Mmin (map (fun x => as_min m (fit x)) seen) P e ->
    best_among m (map fit seen) P' (as_min_ext m e)).
  { intros P P' e HP H. destruct e as [q|]; simpl in *.
    - destruct H as ((w & W1 & W2 & W3) & H). apply in_map_iff in W1. destruct W1 as (x & <- & Hx). split.
      + exists (fit x). split; [apply in_map; auto|]. split; [apply HP; auto|]. rewrite W3. apply as_min_invol.
      + intros z Hz Pz. apply as_good_min. rewrite as_min_invol. apply H; [|apply HP; auto].
        apply in_map_iff in Hz. destruct Hz as (y & <- & Hy). apply in_map_iff. exists y; auto.
    - intros z Hz Pz. apply in_map_iff in Hz. destruct Hz as (y & <- & Hy). apply (H (as_min m (fit y))); [|apply HP; auto].
      apply in_map_iff. exists y; auto. }
  assert (A2 : forall e w, after Mmin e (as_min m w) <-> after m (as_min_ext m e) w).
  { intros [q|] w; simpl; [|tauto]. destruct m; simpl; [tauto|]. split; intros; lra. }
  intros (A & B & D). split; [|split].
  - eapply G; [|exact A]. tauto.
  - eapply G; [|exact B]. apply A2.
  - eapply G; [|exact D]. apply A2.
Qed.

Section P.
Context (expf : Q -> Q) (m : mode) (fit : list Q -> Q) (ds : list dimn) (mt : imethod).
Context (W : wf_dims ds) (DO : discrete_ok mt ds).
Context (n : nat) (n1 : 1 <= n) (ngen : nat) (ka : option (list Q)) (drs : nat -> nat -> gdraw).
Let g := fun x => as_min m (fit x).

Definition hist3 (log : list (list Q)) (ha hb hd : list ext) : Prop :=
  forall k a b d, nth_error ha k = Some a -> nth_error hb k = Some b -> nth_error hd k = Some d ->
    podium Mmin (map g (firstn (n * S k) log)) a b d.

Definition gwo_inv (init : list (list Q)) (k : nat) (st : gwo_state) : Prop :=
  Forall (feasible ds) (gw_pos st) /\ length (gw_pos st) = n /\
  tracks g (gw_best st) (gw_log st) /\
  Forall (feasible ds) (gw_log st) /\ length (gw_log st) = n * k /\
  (k = 0 -> gw_pos st = init) /\ (k <> 0 -> exists rest, gw_log st = init ++ rest) /\
  (k <> 0 -> exists early p, gw_log st = early ++ p /\ gw_last st = combine p (map g p) /\ length p = n) /\
  pod (map g (gw_log st)) (gw_lead st) /\ pack_ok g (length ds) (gw_log st) (gw_lead st) /\
  (length (gw_alpha st) = k /\ length (gw_beta st) = k /\ length (gw_delta st) = k /\ length (gw_hist st) = k) /\
  hist3 (gw_log st) (gw_alpha st) (gw_beta st) (gw_delta st) /\
  global_exact m fit n 1 (gw_log st) (gw_hist st) /\
  (forall v, nth_error (gw_hist st) (k - 1) = Some v -> exists x f, gw_best st = Some (x, f) /\ v = as_min m f).

Lemma gwo_row_ok a alpha l dr i x y : gwo_row expf ds mt a alpha l dr i x = Some y -> feasible ds y.
Proof.
  intros Hz. unfold gwo_row in Hz. apply bind_Some in Hz. destruct Hz as (v & Ev & Hz). apply coords_length in Ev. eapply settle_ok; eauto.
Qed.

Lemma combine_snd {A B} (l : list A) (r : list B) : length l = length r -> map snd (combine l r) = r.
Proof. revert r. induction l; destruct r; simpl; intros; try lia; auto. f_equal. auto. Qed.

Lemma nth_snoc {A} (l : list A) y k v : nth_error (l ++ [y]) k = Some v -> (k < length l /\ nth_error l k = Some v) \/ (k = length l /\ v = y).
Proof.
  intros H. destruct (Nat.lt_ge_cases k (length l)) as [L|L].
  - rewrite nth_error_app1 in H by lia. auto.
  - assert (k < length (l ++ [y])) by (apply nth_error_Some; congruence). rewrite app_length in *; simpl in *.
    assert (k = length l) by lia. subst. rewrite nth_error_app2, Nat.sub_diag in H by lia. inversion H; auto.
Qed.

Lemma gwo_step init k st st' : gwo_inv init k st -> gwo_gen expf m fit ds mt ngen ka drs k st = Some st' -> gwo_inv init (S k) st'.
Proof.
  intros (A & B & C & D & E & F1 & F2 & G1 & G2 & G3 & (L1 & L2 & L3 & L4) & H1 & H2 & H3) Hs.
  unfold gwo_gen in Hs. cbv zeta in Hs. rewrite (map_score m fit ds W _ A), (map_arg ds W _ A) in Hs.
  change (map (fun x => as_min m (fit x)) (gw_pos st)) with (map g (gw_pos st)) in Hs.
  apply bind_Some in Hs. destruct Hs as (a & Ea & Hs). apply bind_Some in Hs. destruct Hs as (pos & Ep & Hs).
  apply bind_Some in Hs. destruct Hs as ([bx bf] & Eb & Hs). inversion Hs; subst st'; clear Hs.
  assert (T : tracks g (track (gw_best st) (combine (gw_pos st) (map g (gw_pos st)))) (gw_log st ++ map fst (combine (gw_pos st) (map g (gw_pos st))))).
  { apply track_tracks; [exact C|apply combine_score]. }
  rewrite combine_fst in T by (rewrite map_length; auto).
  apply (traverse_feas ds) in Ep; [|intros; eapply gwo_row_ok; eauto].
  destruct Ep as (Fp & Lp).
  assert (X : exists rest, gw_log st ++ gw_pos st = init ++ rest).
  { destruct (Nat.eq_dec k 0) as [->|Hk].
    - rewrite (F1 eq_refl). assert (gw_log st = []) by (destruct (gw_log st); auto; simpl in E; lia). rewrite H. exists []. rewrite app_nil_r. auto.
    - destruct (F2 Hk) as (rest & ->). exists (rest ++ gw_pos st). apply app_assoc_reverse. }
  assert (Hb : best_of m fit (gw_log st ++ gw_pos st) bx (as_min m bf)).
  { apply min_of_best. rewrite Eb in T. exact T. }
  assert (Po : pod (map g (gw_log st ++ gw_pos st)) (fold_left up_leaders (combine (gw_pos st) (map g (gw_pos st))) (gw_lead st))).
  { rewrite map_app. rewrite <- (combine_snd (gw_pos st) (map g (gw_pos st))) at 1 by (rewrite map_length; auto). apply podium_fold. auto. }
  set (ld := fold_left up_leaders (combine (gw_pos st) (map g (gw_pos st))) (gw_lead st)) in *.
  assert (Lg : length (gw_log st ++ gw_pos st) = n * S k) by (rewrite app_length, E, Nat.mul_succ_r; lia).
  unfold gwo_inv. cbn [gw_pos gw_best gw_log gw_lead gw_last gw_alpha gw_beta gw_delta gw_hist].
  replace (S k - 1) with k by lia.
  split; [auto|]. split; [lia|]. split; [exact T|]. split; [apply Forall_app; auto|]. split; [auto|]. split; [lia|]. split; [auto|].
  split; [intros _; exists (gw_log st), (gw_pos st); auto|]. split; [auto|].
  split. { apply pack_fold; auto. eapply Forall_impl; [|exact A]. intros. apply feasible_length; auto. }
  split; [rewrite !app_length; simpl; lia|]. split; [|split].
  - intros j va vb vd Ha Hb' Hd. apply nth_snoc in Ha, Hb', Hd.
    destruct Ha as [(La & Ha)|(La & Ha)], Hb' as [(Lb & Hb')|(Lb & Hb')], Hd as [(Ld & Hd)|(Ld & Hd)]; try lia.
    + rewrite firstn_app_le; [eapply H1; eauto|]. rewrite E. apply Nat.mul_le_mono_l. lia.
    + subst j va vb vd. rewrite L1. rewrite firstn_all2 by lia. exact Po.
  - eapply global_exact_snoc; eauto. rewrite E, L4. f_equal. lia.
  - intros v Hv. rewrite nth_error_app2, L4, Nat.sub_diag in Hv by lia. inversion Hv. eauto.
Qed.

Lemma gwo_start_inv init : good_init ds n init -> gwo_inv init 0 (gwo_start ds init).
Proof.
  intros (L & F). unfold gwo_inv, gwo_start. cbn [gw_pos gw_best gw_log gw_lead gw_last gw_alpha gw_beta gw_delta gw_hist].
  split; [auto|]. split; [auto|]. split; [reflexivity|]. split; [constructor|]. split; [simpl; lia|]. split; [auto|]. split; [lia|]. split; [lia|].
  split. { split; [|split]; simpl; tauto. }
  split. { split; [|split]; split; simpl; auto; apply repeat_length. }
  split; [auto|]. split; [intros [|j] ? ? ? Hj; discriminate|]. split; [apply global_exact_nil|]. intros v Hv; discriminate.
Qed.

Lemma gwo_best_ok init r : good_init ds n init -> gwo_evolute expf m fit ds mt ngen ka drs init = Some r ->
  report m fit ds n 1 ngen init (gr_log r) (gr_x r) (gr_y r) (gr_hist r) (gr_pop r) (gr_pf r) /\
  length (gr_alpha r) = ngen /\ length (gr_beta r) = ngen /\ length (gr_delta r) = ngen /\
  (forall k a b d, nth_error (gr_alpha r) k = Some a -> nth_error (gr_beta r) k = Some b -> nth_error (gr_delta r) k = Some d ->
     podium m (map fit (firstn (n * S k) (gr_log r))) a b d).
Proof.
  intros Gi H. unfold gwo_evolute in H. apply bind_Some in H. destruct H as (st & Eg & H).
  apply bind_Some in H. destruct H as ([bx bf] & Eb & H). inversion H; subst r; clear H.
  pose proof (gwo_start_inv init Gi) as I0.
  apply (gens_nat _ (gwo_inv init)) with (1 := fun k s s' => gwo_step init k s s') in Eg; auto. simpl in Eg.
  destruct Eg as (A & B & C & D & E & F1 & F2 & G1 & G2 & G3 & (L1 & L2 & L3 & L4) & H1 & H2 & H3).
  assert (E0 : ngen <> 0).
  { intros Z. rewrite Z in E. rewrite Eb in C. simpl in C. destruct C as (C & _). destruct (gw_log st); [inversion C|simpl in E; lia]. }
  destruct (G1 E0) as (early & p & P1 & P2 & P3).
  cbn [gr_x gr_y gr_alpha gr_beta gr_delta gr_hist gr_pop gr_pf gr_log]. rewrite !map_length.
  split; [unfold report|split; [auto|split; [auto|split; [auto|]]]].
  - repeat match goal with |- _ /\ _ => split end; auto.
    + apply min_of_best. rewrite Eb in C. exact C.
    + rewrite E. f_equal. lia.
    + exists early. rewrite P2, combine_fst; auto. rewrite map_length; auto.
    + eapply global_exact_mono; eauto.
    + destruct (nth_error (gw_hist st) (ngen - 1)) as [v|] eqn:Ev.
      * destruct (H3 _ eq_refl) as (x' & f' & X1 & ->). congruence.
      * apply nth_error_None in Ev. lia.
    + rewrite map_length, P2, combine_length, map_length. lia.
    + rewrite P2. clear. induction p; simpl; constructor; auto. apply as_min_invol.
  - intros k a b d Ha Hb Hd. rewrite nth_error_map in Ha, Hb, Hd.
    destruct (nth_error (gw_alpha st) k) as [a'|] eqn:Ea; [|discriminate]. destruct (nth_error (gw_beta st) k) as [b'|] eqn:Eb'; [|discriminate].
    destruct (nth_error (gw_delta st) k) as [d'|] eqn:Ed; [|discriminate]. simpl in *. inversion Ha; inversion Hb; inversion Hd; subst.
    apply podium_mode. eapply H1; eauto.
Qed.

(** State-level: the positions remembered for the leaders. *)
Lemma gwo_leaders init k st : good_init ds n init -> gens (gwo_gen expf m fit ds mt ngen ka drs) 0 k (gwo_start ds init) = Some st ->
  forall w, w = l_alpha (gw_lead st) \/ w = l_beta (gw_lead st) \/ w = l_delta (gw_lead st) ->
  forall q, snd w = Fin q -> In (fst w) (gw_log st) /\ (q == as_min m (fit (fst w)))%Q /\ feasible ds (fst w).
Proof.
  intros Gi Eg w Hw q Hq. pose proof (gwo_start_inv init Gi) as I0.
  apply (gens_nat _ (gwo_inv init)) with (1 := fun k s s' => gwo_step init k s s') in Eg; auto. simpl in Eg.
  destruct Eg as (A & B & C & D & E & F1 & F2 & G1 & G2 & (G3a & G3b & G3d) & _).
  assert (wolf_ok g (length ds) (gw_log st) w) as (_ & Ok) by (destruct Hw as [->|[->| ->]]; auto).
  rewrite Hq in Ok. destruct Ok as (O1 & O2). split; auto. split; auto. rewrite Forall_forall in D. auto.
Qed.

Lemma gwo_total init : good_init ds n init -> ngen <> 0 -> (forall l, ka = Some l -> length l = ngen) ->
  exists r, gwo_evolute expf m fit ds mt ngen ka drs init = Some r.
Proof.
  intros Gi Hn Hk. unfold gwo_evolute. pose proof (gwo_start_inv init Gi) as I0.
  assert (X : exists st, gens (gwo_gen expf m fit ds mt ngen ka drs) 0 ngen (gwo_start ds init) = Some st /\ gwo_inv init (0 + ngen) st).
  { apply gens_nat_total; auto.
    intros k s Hk0 I. assert (Y : exists s', gwo_gen expf m fit ds mt ngen ka drs k s = Some s').
    { destruct I as (A & B & C & D & E & F1 & F2 & G1 & G2 & G3 & _). unfold gwo_gen. cbv zeta.
      rewrite (map_score m fit ds W _ A), (map_arg ds W _ A).
      change (map (fun x => as_min m (fit x)) (gw_pos s)) with (map g (gw_pos s)).
      assert (exists r, gwo_a ngen k ka = Some r) as (r & Er).
      { unfold gwo_a. destruct ka as [l|]; [|eauto]. rewrite (Hk l eq_refl), Nat.eqb_refl. destruct (nth_error l k) eqn:En; eauto.
        apply nth_error_None in En. rewrite (Hk l eq_refl) in En. lia. }
      rewrite Er. cbn [bind].
      assert (Pk : pack_ok g (length ds) (gw_log s ++ gw_pos s) (fold_left up_leaders (combine (gw_pos s) (map g (gw_pos s))) (gw_lead s))).
      { apply pack_fold; auto. eapply Forall_impl; [|exact A]. intros. apply feasible_length; auto. }
      set (ld := fold_left up_leaders _ _) in *. destruct Pk as ((Pa & _) & (Pb & _) & (Pd & _)).
      destruct (traverse_total_idx (gwo_row expf ds mt r (anneal1 k ngen) ld (drs k)) (gw_pos s) 0) as (pos & Ep).
      { intros i y Hi Hy. unfold gwo_row. cbv zeta.
        match goal with |- context [coords ?f 0 ds y] => destruct (coords_total f ds 0 y) as (v & Ev & Lv) end.
        + apply feasible_length. rewrite Forall_forall in A. auto.
        + intros j d q Hj. simpl. assert (j < length ds) by (apply nth_error_Some; congruence).
          destruct (nth_error (fst (l_alpha ld)) j) eqn:N1; [|apply nth_error_None in N1; lia]. cbn [bind].
          destruct (nth_error (fst (l_beta ld)) j) eqn:N2; [|apply nth_error_None in N2; lia]. cbn [bind].
          destruct (nth_error (fst (l_delta ld)) j) eqn:N3; [|apply nth_error_None in N3; lia]. cbn [bind]. eauto.
        + rewrite Ev. cbn [bind]. destruct (settle_total expf ds W (anneal1 k ngen) mt (g_vd (drs k i)) v Lv DO) as (w & Ew & _). eauto. }
      rewrite Ep. cbn [bind].
      destruct (track_Some (combine (gw_pos s) (map g (gw_pos s))) (gw_best s)) as ([bx bf] & Eb).
      { right. intros Z. apply (f_equal (@length _)) in Z. rewrite combine_length, map_length in Z. simpl in Z. lia. }
      rewrite Eb. cbn [bind]. eauto. }
    destruct Y as (s' & Y). exists s'. split; auto. eapply gwo_step; eauto. }
  destruct X as (st & Es & I). rewrite Es. cbn [bind].
  destruct I as (A & B & C & D & E & F1 & F2 & G1 & G2 & G3 & (L1 & L2 & L3 & L4) & H1 & H2 & H3).
  destruct (nth_error (gw_hist st) (0 + ngen - 1)) as [v|] eqn:Ev.
  - destruct (H3 _ eq_refl) as (x & f & X1 & _). rewrite X1. cbn [bind]. eauto.
  - apply nth_error_None in Ev. lia.
Qed.
End P.
