From Coq Require Import List Arith ZArith QArith Lia Lqa Bool Permutation.
From Verif Require Import Base BaseFacts Space_Model Space_Spec Space_Proofs Opt_Model Opt_Spec Opt_Facts Opt_Facts2 Pop_Model Pop_Spec Pop_Proofs Swarm_Model EDEV_Model EDEV_Spec EDEV_Proofs EDEV_Run.
Import ListNotations.
Open Scope nat_scope.

Local Opaque gnR1R2 reject.

Lemma last_map {A B} (f : A -> B) l : forall x d e, last (map f (x :: l)) d = f (last (x :: l) e).
Proof.
  induction l as [|y l IH]; intros x d e; [reflexivity|].
  change (last (map f (y :: l)) d = f (last (y :: l) e)). apply IH.
Qed.

Section Top.
Context (expf : Q -> Q) (m : mode) (fit : list Q -> Q) (ds : list dimn) (mt : imethod).
Context (W : wf_dims ds) (D : discrete_ok mt ds).
Notation row := (fun v : list Q => length v = length ds).
Notation g := (fun x => as_min m (fit x)).

Lemma slice_pos lambda npop s : slice_index lambda npop = Some s -> 7 <= s.
Proof. unfold slice_index. destruct (Z.to_nat _ <=? 6) eqn:E; [discriminate|]. intros H. inversion H; subst. apply Nat.leb_gt in E. lia. Qed.

Lemma pop_start pop k y x : Forall (feasible ds) pop -> argmin (scores m fit ds pop) = Some (k, y) -> nth_error pop k = Some x ->
  pop_ok m fit ds (length pop) pop (scores m fit ds pop) (x, y) pop.
Proof.
  intros F E Ex. rewrite (scores_ok m fit ds W pop F) in *. destruct (min_of_argmin _ _ _ _ E) as (x' & Ex' & M).
  rewrite Ex in Ex'. inversion Ex'; subst x'. split; auto.
  - clear. induction pop; simpl; constructor; auto. reflexivity.
  - intros z Hz. auto.
  - exists y. split; [|reflexivity]. apply argmin_spec in E. destruct E as (E & _). eapply nth_error_In; eauto.
Qed.

Lemma ed_final lambda npop ngen ng sd dr init r : start_draws_ok npop sd -> (forall k, draws_ok npop (dr k)) -> Forall row init ->
  ed_evolute expf m fit ds mt lambda npop ngen ng sd dr init = Some r ->
  exists s st, slice_index lambda npop = Some s /\ ng < ngen /\ run_ok m fit ds npop s ngen (fst (er_start r)) st /\
    er_x r = fst (x_best st) /\ er_y r = as_min m (snd (x_best st)) /\ er_hist r = x_hist st /\ er_pop r = x_pop st /\
    er_fits r = map (as_min m) (x_val st) /\ er_log r = x_log st /\ er_trace r = x_trace st /\
    snd (er_start r) = scores m fit ds (fst (er_start r)) /\
    Forall (feasible ds) (fst (er_start r)) /\ settle_all expf ds mt 1 (i_vd sd) init = Some (fst (er_start r)) /\
    exists third, gather (firstn s (i_perm sd)) (fst (er_start r)) = Some third /\
       settle_all expf ds mt 1 (i_vd3 sd) third = Some (er_again r) /\ Forall (feasible ds) (er_again r).
Proof.
  intros (DP & _) DR FI H. unfold ed_evolute in H. apply bind_Some in H. destruct H as (s & ES & H).
  destruct (ng <? ngen) eqn:E1; [|discriminate]. cbn [negb] in H. destruct (length init =? npop) eqn:E2; [|discriminate]. cbn [negb] in H.
  apply Nat.ltb_lt in E1. apply Nat.eqb_eq in E2.
  apply bind_Some in H. destruct H as (pop & EP & H). apply bind_Some in H. destruct H as ([k y] & EA & H).
  apply bind_Some in H. destruct H as (x & EX & H). apply bind_Some in H. destruct H as (third & ET & H).
  apply bind_Some in H. destruct H as (again & EG & H). apply bind_Some in H. destruct H as ([k3 y3] & EA3 & H).
  apply bind_Some in H. destruct H as (x3 & EX3 & H). apply bind_Some in H. destruct H as (st & GS & H).
  inversion H; subst r; clear H. cbn [er_x er_y er_hist er_pop er_fits er_log er_trace er_start er_again fst snd].
  destruct (settle_all_some expf ds mt W D _ _ _ _ FI EP) as [LP FP].
  assert (Ft : Forall (feasible ds) third) by (eapply gather_Forall; eauto).
  assert (Frt : Forall row third) by (eapply Forall_impl; [|exact Ft]; intros a Ha; apply feasible_length; auto).
  destruct (settle_all_some expf ds mt W D _ _ _ _ Frt EG) as [LG FG].
  pose proof (slice_pos _ _ _ ES) as S7.
  exists s, st. split; auto. split; auto. split.
  - rewrite (map_arg ds W pop FP) in GS.
    refine (gens_nat (ed_gen expf m fit ds mt s _ ngen ng (i_spara sd) dr) (fun k st => run_ok m fit ds npop s k pop st) _ ngen 0 _ _ _ GS).
    + intros k' st1 st2 R E. eapply ed_step; eauto. lia.
    + pose proof (pop_start pop k y x FP EA EX) as PS. rewrite LP, E2 in PS.
      split; cbn [x_pop x_val x_best x_log x_arch x_bm x_trace x_hist map]; auto; try (constructor; fail).
      * cbn [fst]. apply feasible_length. rewrite Forall_forall in FG. apply FG. eapply nth_error_In; eauto.
      * discriminate.
      * apply never_worse_nil.
      * intros h [].
      * discriminate.
      * exists []. rewrite app_nil_r. auto.
      * unfold evaluations. simpl. lia.
  - do 8 (split; [reflexivity|]). split; [auto|]. split; [auto|].
    exists third. rewrite (map_arg ds W again FG). split; auto.
Qed.

Section Facts.
Context (lambda : Q) (npop ngen ng : nat) (sd : sdraw) (dr : nat -> edraw) (init : list (list Q)) (r : eresult).
Context (SD : start_draws_ok npop sd) (DR : forall k, draws_ok npop (dr k)) (FI : Forall row init).
Context (RUN : ed_evolute expf m fit ds mt lambda npop ngen ng sd dr init = Some r).

Lemma ed_partition : exists s, slice_index lambda npop = Some s /\ 7 <= s /\ length (er_trace r) = ngen /\
  Forall (fun t => partition npop s (fst (fst t))) (er_trace r).
Proof.
  destruct (ed_final _ _ _ _ _ _ _ _ SD DR FI RUN) as (s & st & ES & _ & R & _ & _ & _ & _ & _ & _ & -> & _).
  exists s. split; auto. split; [eapply slice_pos; eauto|]. split; apply R.
Qed.
Lemma ed_slots :
  slots_ok m fit ds npop (fst (er_start r)) (snd (er_start r)) /\
  Forall (fun t => slots_ok m fit ds npop (snd (fst t)) (snd t)) (er_trace r) /\
  chain (no_slot_worse m fit) (fst (er_start r)) (map (fun t => snd (fst t)) (er_trace r)) /\
  er_pop r = last (map (fun t => snd (fst t)) (er_trace r)) (fst (er_start r)) /\
  Forall2 (fun x v => (v == fit x)%Q) (er_pop r) (er_fits r).
Proof.
  destruct (ed_final _ _ _ _ _ _ _ _ SD DR FI RUN) as (s & st & ES & _ & R & _ & _ & _ & EP & EF & _ & ET & SS & FS & SA & _).
  rewrite EP, EF, ET, SS.
  assert (LS : length (fst (er_start r)) = npop).
  { destruct (settle_all_some expf ds mt W D _ _ _ _ FI SA) as [L _]. rewrite L.
    unfold ed_evolute in RUN. apply bind_Some in RUN. destruct RUN as (s' & _ & Z).
    destruct (ng <? ngen); [|discriminate]. cbn [negb] in Z. destruct (length init =? npop) eqn:E2; [|discriminate].
    apply Nat.eqb_eq in E2. auto. }
  split.
  { split; auto. split; auto. rewrite (scores_ok m fit ds W _ FS).
    clear. induction (fst (er_start r)); simpl; constructor; auto. reflexivity. }
  split; [apply R|]. split; [apply R|]. split; [symmetry; apply R|].
  pose proof (po_val _ _ _ _ _ _ _ _ (ro_pop _ _ _ _ _ _ _ _ R)) as F.
  clear -F. induction F as [|x v l l' H F IH]; simpl; constructor; auto.
  rewrite (as_min_eq m _ _ H). apply as_min_invol.
Qed.
Lemma ed_best : best_of m fit (er_log r) (er_x r) (er_y r) /\ Forall (feasible ds) (er_log r ++ er_again r) /\
  (exists rest, er_log r = fst (er_start r) ++ rest) /\ feasible ds (er_x r).
Proof.
  destruct (ed_final _ _ _ _ _ _ _ _ SD DR FI RUN) as (s & st & ES & _ & R & -> & -> & _ & _ & _ & -> & _ & _ & _ & _ & third & _ & _ & FA).
  pose proof (ro_pop _ _ _ _ _ _ _ _ R) as P. split; [apply min_of_best; apply P|].
  split; [apply Forall_app; split; [apply P|auto]|]. split; [apply R|].
  pose proof (po_log _ _ _ _ _ _ _ _ P) as FL. rewrite Forall_forall in FL. apply FL.
  destruct (po_min _ _ _ _ _ _ _ _ P) as (Z & _). exact Z.
Qed.
Lemma ed_history : length (er_hist r) = ngen /\ Forall2 (entry_ok m fit npop) (er_trace r) (er_hist r) /\
  never_worse m (map (fun h : Q * Q * Q * Q => fst (fst (fst h))) (er_hist r)) /\
  exists h, nth_error (er_hist r) (ngen - 1) = Some h /\ fst (fst (fst h)) = er_y r.
Proof.
  destruct (ed_final _ _ _ _ _ _ _ _ SD DR FI RUN) as (s & st & ES & NG & R & _ & -> & -> & _ & _ & _ & -> & _).
  assert (L : length (x_hist st) = ngen).
  { rewrite <- (ro_len _ _ _ _ _ _ _ _ R). symmetry. eapply Forall2_length. apply R. }
  split; auto. split; [apply R|]. split; [apply R|].
  destruct (nth_of_lt (x_hist st) (ngen - 1)) as (h & Eh); [lia|]. exists h. split; auto.
  apply (ro_lasth _ _ _ _ _ _ _ _ R).
  destruct (x_hist st) as [|h0 l] eqn:E; [simpl in L; lia|].
  rewrite <- L in Eh. rewrite (nth_error_last _ h0) in Eh by congruence. inversion Eh as [Eh'].
  apply (last_map (fun h : Q * Q * Q * Q => Some (fst (fst (fst h))))).
Qed.
Lemma ed_count : exists s, slice_index lambda npop = Some s /\ length (er_log r) = npop + evaluations (er_trace r) /\ length (er_again r) = s.
Proof.
  destruct (ed_final _ _ _ _ _ _ _ _ SD DR FI RUN) as (s & st & ES & NG & R & _ & _ & _ & _ & _ & -> & -> & _ & FS & SA & third & ET & EA & _).
  exists s. split; auto. split; [apply R|].
  assert (Frt : Forall row third).
  { apply Forall_forall. intros x Hx. apply feasible_length. rewrite Forall_forall in FS. apply FS. eapply gather_In; eauto. }
  destruct (settle_all_some expf ds mt W D _ _ _ _ Frt EA) as [L _]. rewrite L.
  rewrite (gather_length _ _ _ ET), firstn_length. destruct SD as [P _]. rewrite (Permutation_length P), seq_length.
  pose proof (ro_part _ _ _ _ _ _ _ _ R) as Z. pose proof (ro_len _ _ _ _ _ _ _ _ R) as Y.
  destruct (x_trace st) as [|t tr]; [simpl in Y; lia|]. inversion Z as [|? ? [PP (big & Hb & Lb & PL)] _]; subst.
  pose proof (Permutation_length PP) as Q1. rewrite !app_length, seq_length in Q1.
  assert (list_sum [length (g1 (fst (fst t))); length (g2 (fst (fst t))); length (g3 (fst (fst t)))] = list_sum [length big; s; s]).
  { clear -PL. induction PL; simpl in *; lia. }
  simpl in H. pose proof (slice_pos _ _ _ ES). lia.
Qed.
Lemma ed_best_all : keeps_ints mt ds -> respects fit -> best_of m fit (er_log r ++ er_again r) (er_x r) (er_y r).
Proof.
  intros K RF. destruct ed_best as ((B1 & B2 & B3) & _ & (rest & ER) & _).
  destruct (ed_final _ _ _ _ _ _ _ _ SD DR FI RUN) as (s & st & _ & _ & _ & _ & _ & _ & _ & _ & _ & _ & _ & FS & _ & third & ET & EA & _).
  split; [apply in_app_iff; auto|]. split; auto. intros z Hz. apply in_app_iff in Hz. destruct Hz as [Hz|Hz]; auto.
  assert (Ft : Forall (feasible ds) third) by (eapply gather_Forall; eauto).
  assert (X : Forall2 (Forall2 Qeq) third (er_again r)).
  { clear -EA Ft W K. unfold settle_all in EA. revert EA. generalize (er_again r). generalize 0.
    induction Ft as [|x third Fx Ft IH]; intros n ag EA; cbn [traverse] in EA.
    - inversion EA; constructor.
    - apply bind_Some in EA. destruct EA as (y & Ey & EA). apply bind_Some in EA. destruct EA as (l & El & EA). inversion EA; subst.
      constructor; [|eapply IH; eauto]. unfold settle in Ey. change (bnds ds) with (dim_bounds ds) in Ey.
      rewrite (clip_id ds x W (feasible_inside _ _ Fx)) in Ey.
      destruct (ensure_keeps expf 1 mt (vd_rand (i_vd3 sd n)) (vd_pick (i_vd3 sd n)) ds x K W (feasible_inside _ _ Fx)) as (y' & Ey' & _ & Q1).
      rewrite Ey in Ey'. inversion Ey'; subst. apply Forall2_Qeq_sym. auto. }
  apply In_nth_error in Hz. destruct Hz as (k & Ek). apply Forall2_nth in X. destruct X as [LX X].
  destruct (nth_of_lt third k) as (x & Ex). { rewrite LX. apply nth_error_Some. congruence. }
  specialize (X _ _ _ Ex Ek). apply RF in X.
  assert (Hx : In x (er_log r)). { rewrite ER. apply in_app_iff. left. eapply gather_In; [exact ET|]. eapply nth_error_In; eauto. }
  specialize (B3 x Hx). destruct m; simpl in *; lra.
Qed.
End Facts.
End Top.
