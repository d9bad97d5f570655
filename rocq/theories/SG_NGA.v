(** Proofs about NGA. *)
From Coq Require Import List Arith ZArith QArith Qabs Qround Bool Lia Lqa Permutation.
From Verif Require Import Base BaseFacts Space_Model Space_Spec Space_Facts Opt_Model Opt_Spec Opt_Facts Opt_Facts2
  Pop_Model Pop_Spec Pop_Proofs Swarm_Model HHO_Model HHO_Proofs P2_Model SG_Model SG_Spec SG_Latin SG_GA.
Import ListNotations.
Open Scope nat_scope.

Section S.
Context (net : Type) (train : nat -> nat -> list (list Q * Q) -> net) (predict : net -> list Q -> Q).
Local Notation surr c k := (fun data => predict (train c k data)).

Lemma pseudo_ok a b pop x y : pseudo net predict a b pop = Some (x, y) -> best_agreed (predict a) (predict b) pop x y.
Proof.
  unfold pseudo. intros H. apply bind_Some in H. destruct H as ([i e] & Ea & H). apply bind_Some in H. destruct H as (z & Ez & H). inversion H; subst; clear H.
  apply argmin_spec in Ea. destruct Ea as (A & B & _). rewrite nth_error_map, Ez in A. cbn [option_map] in A. inversion A; subst e; clear A.
  split; [eapply nth_error_In; eauto|]. split; [reflexivity|]. intros w Hw. apply B. apply (in_map (fun x => Qabs (predict a x - predict b x))). auto.
Qed.
Lemma pseudo_total a b pop : pop <> [] -> exists e, pseudo net predict a b pop = Some e.
Proof.
  intros H. unfold pseudo. destruct (argmin_Some (map (fun x => Qabs (predict a x - predict b x)) pop)) as (i & e & E); [intros Z; apply map_eq_nil in Z; auto|].
  rewrite E. cbn [bind]. apply argmin_spec in E. destruct E as (E & _). rewrite nth_error_map in E. destruct (nth_error pop i); [|discriminate]. cbn [bind]. eauto.
Qed.

Section N.
Context (rt : Q -> Q) (m : mode) (fit : list Q -> Q) (ds : list dimn) (npop nwarm h : nat).
Context (R : root16 rt) (Fd : Forall (fun d => (d_lo d <= d_hi d)%Q) ds).
Local Notation third := (nwarm / 3).

(** The models of one reset. *)
Definition blocks (c : nat) (data : tset) (mo : nga_models net) : Prop :=
  exists b0 b1 b2 rest, nm_parts net mo = (b0, b1, b2) /\ nm_nets net mo = (train c 0 b0, train c 1 b1, train c 2 b2) /\
    Permutation data (b0 ++ b1 ++ b2 ++ rest) /\ length b0 = third /\ length b1 = third /\ length b2 = third.

Lemma third_le : 3 * third <= nwarm.
Proof. apply Nat.mul_div_le. lia. Qed.

Lemma reset_ok c sh data data' mo : length data = nwarm -> nga_reset net train nwarm h c sh data = Some (data', mo) ->
  Permutation data' data /\ blocks c data mo.
Proof.
  intros L H. unfold nga_reset in H. cbv zeta in H. unfold nga_third in H. set (dt := shuffle sh data) in *.
  assert (P : Permutation dt data) by apply shuffle_perm. assert (Ld : length dt = nwarm) by (rewrite (Permutation_length P); auto).
  apply bind_Some in H. destruct H as (n0 & E0 & H). apply bind_Some in H. destruct H as (n1 & E1 & H). apply bind_Some in H. destruct H as (n2 & E2 & H).
  inversion H; subst data' mo; clear H. split; auto.
  unfold rbf_fit in E0, E1, E2. destruct (_ && _) in E0; [|discriminate]. destruct (_ && _) in E1; [|discriminate]. destruct (_ && _) in E2; [|discriminate].
  inversion E0; inversion E1; inversion E2; subst n0 n1 n2; clear E0 E1 E2.
  pose proof third_le as T. exists (firstn third dt), (firstn third (skipn third dt)), (skipn (nwarm - third) dt), (firstn (nwarm - third - third - third) (skipn third (skipn third dt))).
  split; [reflexivity|]. split; [reflexivity|]. split.
  - eapply perm_trans; [apply Permutation_sym; exact P|].
    assert (E : dt = firstn third dt ++ firstn third (skipn third dt) ++ firstn (nwarm - third - third - third) (skipn third (skipn third dt)) ++ skipn (nwarm - third) dt).
    { rewrite <- (firstn_skipn third dt) at 1. f_equal. rewrite <- (firstn_skipn third (skipn third dt)) at 1. f_equal.
      rewrite <- (firstn_skipn (nwarm - third - third - third) (skipn third (skipn third dt))) at 1. f_equal.
      apply (@nth_error_ext _ _ _) || idtac.
      assert (G : forall i, nth_error (skipn (nwarm - third - third - third) (skipn third (skipn third dt))) i = nth_error (skipn (nwarm - third) dt) i) by (intros i; rewrite !nth_error_skip; f_equal; lia).
      revert G. generalize (skipn (nwarm - third - third - third) (skipn third (skipn third dt))) (skipn (nwarm - third) dt). clear.
      induction l as [|a l IH]; intros [|b r] G; auto; [specialize (G 0); discriminate|specialize (G 0); discriminate|].
      f_equal; [specialize (G 0); simpl in G; congruence|]. apply IH. intros i. apply (G (S i)). }
    rewrite E at 1. apply Permutation_app_head. apply Permutation_app_head. apply Permutation_app_comm.
  - rewrite !firstn_length, !skipn_length. lia.
Qed.
Lemma reset_total c sh data : length data = nwarm -> 2 <= h -> h <= third -> exists r, nga_reset net train nwarm h c sh data = Some r.
Proof.
  intros L H2 Ht. unfold nga_reset. cbv zeta. unfold nga_third, rbf_fit. set (dt := shuffle sh data).
  assert (Ld : length dt = nwarm) by (unfold dt; rewrite (Permutation_length (shuffle_perm sh data)); auto). pose proof third_le as T.
  rewrite !firstn_length, !skipn_length, Ld.
  replace (Nat.min third nwarm) with third by lia. replace (Nat.min third (nwarm - third)) with third by lia. replace (nwarm - (nwarm - third)) with third by lia.
  apply Nat.leb_le in H2, Ht. rewrite H2, Ht. cbn [andb bind]. eauto.
Qed.
Lemma reset_small c sh data : h < 2 \/ third < h -> length data = nwarm -> nga_reset net train nwarm h c sh data = None.
Proof.
  intros Hh L. unfold nga_reset. cbv zeta. unfold nga_third. unfold rbf_fit at 1. set (dt := shuffle sh data).
  assert (Ld : length dt = nwarm) by (unfold dt; rewrite (Permutation_length (shuffle_perm sh data)); auto). pose proof third_le as T.
  rewrite firstn_length, Ld. replace (Nat.min third nwarm) with third by lia.
  destruct (Nat.leb_spec 2 h); destruct (Nat.leb_spec h third); cbn [andb bind]; auto. lia.
Qed.

Lemma update_ok c c' data pop mo up : blocks c data mo -> nga_update net train predict h c' pop mo = Some up ->
  exists p0 p1 p2, nm_parts net up = (p0, p1, p2) /\ nm_nets net up = (train c' 0 p0, train c' 1 p1, train c' 2 p2) /\
    tri_training (fun k b => predict (train c k b)) third data pop p0 p1 p2.
Proof.
  intros (b0 & b1 & b2 & rest & Ep & En & P & L0 & L1 & L2) H. unfold nga_update in H. rewrite Ep, En in H.
  apply bind_Some in H. destruct H as ([x0 y0] & E0 & H). apply bind_Some in H. destruct H as (m0 & M0 & H).
  apply bind_Some in H. destruct H as ([x1 y1] & E1 & H). apply bind_Some in H. destruct H as (m1 & M1 & H).
  apply bind_Some in H. destruct H as ([x2 y2] & E2 & H). apply bind_Some in H. destruct H as (m2 & M2 & H). inversion H; subst up; clear H.
  unfold rbf_fit in M0, M1, M2. destruct (_ && _) in M0; [|discriminate]. destruct (_ && _) in M1; [|discriminate]. destruct (_ && _) in M2; [|discriminate].
  inversion M0; inversion M1; inversion M2; subst m0 m1 m2. exists (b0 ++ [(x0, y0)]), (b1 ++ [(x1, y1)]), (b2 ++ [(x2, y2)]).
  split; [reflexivity|]. split; [reflexivity|]. exists b0, b1, b2, rest, x0, y0, x1, y1, x2, y2.
  split; [exact P|]. split; [exact L0|]. split; [exact L1|]. split; [exact L2|]. do 3 (split; [reflexivity|]).
  split; [apply pseudo_ok; exact E0|]. split; apply pseudo_ok; assumption.
Qed.
Lemma update_total c c' data pop mo : pop <> [] -> 2 <= h -> h <= third -> blocks c data mo -> exists up, nga_update net train predict h c' pop mo = Some up.
Proof.
  intros Hp H2 Ht (b0 & b1 & b2 & rest & Ep & En & P & L0 & L1 & L2). unfold nga_update. rewrite Ep, En.
  assert (Fit : forall k b e, length b = third -> rbf_fit net train h c' k (b ++ [e]) = Some (train c' k (b ++ [e]))).
  { intros k b e Lb. unfold rbf_fit. rewrite app_length. cbn [length]. destruct (Nat.leb_spec 2 h); [|lia]. destruct (Nat.leb_spec h (length b + 1)); [|lia]. reflexivity. }
  destruct (pseudo_total (train c 1 b1) (train c 2 b2) pop Hp) as (e0 & ->). cbn [bind]. rewrite Fit by auto. cbn [bind].
  destruct (pseudo_total (train c 0 b0) (train c 2 b2) pop Hp) as (e1 & ->). cbn [bind]. rewrite Fit by auto. cbn [bind].
  destruct (pseudo_total (train c 0 b0) (train c 1 b1) pop Hp) as (e2 & ->). cbn [bind]. rewrite Fit by auto. cbn [bind]. eauto.
Qed.

(** Entry [t] of the trace and of the returned lists. *)
Definition gen_ok (data : tset) (t : nat) (s : nga_step) (x : list Q) (y : Q) : Prop :=
  exists p0 p1 p2, ns_parts s = (p0, p1, p2) /\
    nga_generation m ds npop third data (fun k b => predict (train (2 * t) k b)) (fun k b => predict (train (2 * t + 1) k b))
      (ns_parents s) p0 p1 p2 (ns_cands s) (ns_next s) x y.

Definition nga_inv (data : tset) (init : list (list Q)) (k : nat) (st : nga_state net) : Prop :=
  length (ng_pop net st) = npop /\ Forall (inside (dim_bounds ds)) (ng_pop net st) /\ distinct_rows (ng_pop net st) /\
  Permutation (ng_data net st) data /\ blocks (2 * k) (ng_data net st) (ng_models net st) /\
  length (ng_x net st) = k /\ length (ng_y net st) = k /\ length (ng_trace net st) = k /\
  (forall t s, nth_error (ng_trace net st) t = Some s -> exists x y, nth_error (ng_x net st) t = Some x /\ nth_error (ng_y net st) t = Some y /\ gen_ok data t s x y) /\
  (forall s, nth_error (ng_trace net st) 0 = Some s -> ns_parents s = init) /\
  (forall t s s', nth_error (ng_trace net st) t = Some s -> nth_error (ng_trace net st) (S t) = Some s' -> ns_parents s' = ns_next s) /\
  (k = 0 -> ng_pop net st = init) /\ (forall s, nth_error (ng_trace net st) (k - 1) = Some s -> k <> 0 -> ng_pop net st = ns_next s).

Lemma tri_perm base k d1 d2 pop p0 p1 p2 : Permutation d1 d2 -> tri_training base k d1 pop p0 p1 p2 -> tri_training base k d2 pop p0 p1 p2.
Proof.
  intros P (b0 & b1 & b2 & rest & x0 & y0 & x1 & y1 & x2 & y2 & Q1 & H). exists b0, b1, b2, rest, x0, y0, x1, y1, x2, y2. split; auto.
  eapply perm_trans; [apply Permutation_sym; exact P|exact Q1].
Qed.
Lemma blocks_perm c d1 d2 mo : Permutation d1 d2 -> blocks c d1 mo -> blocks c d2 mo.
Proof.
  intros P (b0 & b1 & b2 & rest & A & B & Q1 & H). exists b0, b1, b2, rest. split; auto. split; auto. split; auto.
  eapply perm_trans; [apply Permutation_sym; exact P|exact Q1].
Qed.

Lemma snoc_nth {A} (l : list A) a t x : nth_error (l ++ [a]) t = Some x -> (t < length l /\ nth_error l t = Some x) \/ (t = length l /\ x = a).
Proof.
  intros H. destruct (Nat.lt_ge_cases t (length l)) as [L|L].
  - rewrite nth_error_app1 in H by auto. auto.
  - rewrite nth_error_app2 in H by auto. destruct (t - length l) as [|q] eqn:E; simpl in H; [inversion H; subst; right; split; auto; lia|destruct q; discriminate].
Qed.
Lemma snoc_last {A} (l : list A) a : nth_error (l ++ [a]) (length l) = Some a.
Proof. rewrite nth_error_app2, Nat.sub_diag by auto. reflexivity. Qed.
Lemma snoc_old {A} (l : list A) a t : t < length l -> nth_error (l ++ [a]) t = nth_error l t.
Proof. apply nth_error_app1. Qed.

Lemma nga_step_ok data init drs k st st' : length data = nwarm -> (forall t i j, 0 <= gm_u (nd_ga (drs t)) i j <= 1)%Q ->
  nga_inv data init k st -> nga_gen net train predict rt m ds npop nwarm h drs k st = Some st' -> nga_inv data init (S k) st'.
Proof.
  intros Ld U (A & B & C & D & E & Lx & Ly & Lt & T & T0 & T1 & K0 & K1) H. unfold nga_gen in H. cbv zeta in H.
  apply bind_Some in H. destruct H as (up & Eu & H). destruct (update_ok _ _ _ _ _ _ E Eu) as (p0 & p1 & p2 & Ep & En & Tri). rewrite En in H.
  apply bind_Some in H. destruct H as (cr & Ec & H). apply bind_Some in H. destruct H as (mu & Em & H).
  apply bind_Some in H. destruct H as (best & Eb & H). apply bind_Some in H. destruct H as ([dt mo] & Er & H).
  apply bind_Some in H. destruct H as ([ix lo] & Ea & H). inversion H; subst st'; clear H.
  destruct (crossover_ok _ _ _ _ Fd B Ec) as (kids & -> & Lk & Fk).
  assert (Fc : Forall (inside (dim_bounds ds)) (ng_pop net st ++ kids)) by (apply Forall_app; auto).
  destruct (mutate_ok rt ds _ npop _ _ R (U k) Fc Em) as (Lm & Fm & Im).
  set (cands := ga_unique mu) in *. set (score := consensus net predict (train (2 * k + 1) 0 p0) (train (2 * k + 1) 1 p1) (train (2 * k + 1) 2 p2)) in *.
  set (next := map fst (firstn npop (sel_sort (map (fun x => (x, score x)) cands)))) in *.
  pose proof (selection_ok score npop cands) as KB. fold next in KB.
  assert (Fcand : Forall (inside (dim_bounds ds)) cands). { apply Forall_forall. intros z Hz. apply unique_incl in Hz. rewrite Forall_forall in Fm. auto. }
  assert (Rep : forall p, In p (ng_pop net st) -> exists c, In c cands /\ Forall2 Qeq p c). { intros p Hp. apply unique_repr. apply Im. apply in_or_app; auto. }
  assert (Lc : npop <= length cands) by (rewrite <- A; apply represented_length; auto).
  destruct KB as (N1 & (rest & N2 & N3) & N4). rewrite Nat.min_l in N1 by auto.
  assert (Dn : distinct_rows next). { apply (distinct_app_l next rest). eapply distinct_perm; [exact N2|]. apply unique_distinct. }
  assert (Fn : Forall (inside (dim_bounds ds)) next). { apply Forall_forall. intros z Hz. rewrite Forall_forall in Fcand. apply Fcand. eapply Permutation_in; [apply Permutation_sym; exact N2|apply in_or_app; auto]. }
  assert (Min : forall z, In z cands -> (score best <= score z)%Q).
  { intros z Hz. apply (Permutation_in _ N2) in Hz. apply in_app_or in Hz. destruct Hz as [Hz|Hz].
    - apply In_nth_error in Hz. destruct Hz as ([|i] & Ei); [assert (Eq : Some z = Some best) by congruence; inversion Eq; apply Qle_refl|]. apply (N4 0 (S i)); auto. lia.
    - apply N3; auto. eapply nth_error_In; eauto. }
  assert (Hbest : In best cands) by (eapply Permutation_in; [apply Permutation_sym; exact N2|]; apply in_or_app; left; eapply nth_error_In; eauto).
  assert (Ldt : length (ng_data net st) = nwarm) by (rewrite (Permutation_length D); auto).
  destruct (reset_ok _ _ _ _ _ Ldt Er) as (Pd & Bl).
  assert (Elo : (lo == score best)%Q).
  { apply argmin_spec in Ea. destruct Ea as (A1 & A2 & _). rewrite map_map in A1, A2. cbn [snd] in A1, A2. rewrite nth_error_map in A1.
    destruct (nth_error cands ix) as [z|] eqn:Ez; [|discriminate]. cbn [option_map] in A1. inversion A1 as [A1']. apply nth_error_In in Ez.
    pose proof (Min z Ez). pose proof (A2 (score best) (in_map score _ _ Hbest)). rewrite <- A1' in *. lra. }
  unfold nga_inv. cbn [ng_pop ng_data ng_models ng_x ng_y ng_trace].
  split; [exact N1|]. split; [exact Fn|]. split; [exact Dn|]. split; [eapply perm_trans; [exact Pd|exact D]|].
  split. { replace (2 * S k) with (2 * (k + 1)) by lia. eapply blocks_perm; [apply Permutation_sym; exact Pd|]. exact Bl. }
  split; [rewrite app_length; simpl; lia|]. split; [rewrite app_length; simpl; lia|]. split; [rewrite app_length; simpl; lia|].
  split. { intros t s Hs. apply snoc_nth in Hs. destruct Hs as [(Hl & Hs)|(Hl & ->)].
    - destruct (T t s Hs) as (x & y & X1 & X2 & X3). exists x, y. rewrite !snoc_old by lia. auto.
    - exists best, (as_min m lo). split; [replace t with (length (ng_x net st)) by lia; apply snoc_last|]. split; [replace t with (length (ng_y net st)) by lia; apply snoc_last|].
      assert (t = k) as -> by lia. exists p0, p1, p2. split; [exact Ep|]. cbn [ns_parents ns_cands ns_next]. unfold nga_generation. cbv zeta.
      change (mean3 (predict (train (2 * k + 1) 0 p0)) (predict (train (2 * k + 1) 1 p1)) (predict (train (2 * k + 1) 2 p2))) with score.
      split; [eapply tri_perm; [exact D|exact Tri]|]. split; [exact Fcand|]. split; [apply unique_distinct|]. split; [exact Rep|].
      split; [split; [rewrite Nat.min_l by auto; exact N1|split; [exists rest; auto|exact N4]]|]. split; [exact N1|]. split; [exact Eb|]. split; [exact Min|].
      destruct m; simpl; rewrite Elo; reflexivity. }
  split. { intros s Hs. apply snoc_nth in Hs. destruct Hs as [(Hl & Hs)|(Hl & ->)]; auto. cbn [ns_parents]. apply K0. lia. }
  split. { intros t s s' Hs Hs'. apply snoc_nth in Hs'. destruct Hs' as [(Hl' & Hs')|(Hl' & ->)].
    - rewrite snoc_old in Hs by lia. eauto.
    - rewrite snoc_old in Hs by lia. cbn [ns_parents]. apply K1; [|lia]. replace (k - 1) with t by lia. auto. }
  split; [lia|]. intros s Hs _. replace (S k - 1) with (length (ng_trace net st)) in Hs by lia. rewrite snoc_last in Hs. inversion Hs; subst s. reflexivity.
Qed.

Lemma nga_step_total data init drs k st : length data = nwarm -> Forall (fun d => (d_lo d < d_hi d)%Q) ds -> 2 <= npop -> 2 <= h -> h <= third ->
  nga_inv data init k st -> exists st', nga_gen net train predict rt m ds npop nwarm h drs k st = Some st'.
Proof.
  intros Ld Fl Hp H2 Ht (A & B & C & D & E & _). unfold nga_gen. cbv zeta.
  destruct (update_total (2 * k) (2 * k + 1) (ng_data net st) (ng_pop net st) (ng_models net st)) as (up & Eu); auto.
  { intros Z. rewrite Z in A. simpl in A. lia. }
  rewrite Eu. cbn [bind]. destruct (update_ok _ _ _ _ _ _ E Eu) as (p0 & p1 & p2 & Ep & En & Tri). rewrite En.
  destruct (crossover_total ds (nd_ga (drs k)) (ng_pop net st)) as (cr & Ec); [lia|]. rewrite Ec. cbn [bind].
  destruct (crossover_ok _ _ _ _ Fd B Ec) as (kids & -> & Lk & Fk).
  destruct (mutate_total rt ds (nd_ga (drs k)) npop (ng_pop net st ++ kids) Fl) as (mu & Em).
  { rewrite app_length. lia. }
  { apply Forall_app. split; eapply Forall_impl; try eassumption; intros z Hz; apply inside_len; auto. }
  rewrite Em. cbn [bind]. set (score := consensus net predict (train (2 * k + 1) 0 p0) (train (2 * k + 1) 1 p1) (train (2 * k + 1) 2 p2)).
  assert (Hmu : exists z, In z (ga_unique mu)).
  { assert (Nm : exists z, In z mu).
    { apply (gens_nat _ (fun _ s => npop <= length s)) in Em; [|intros q s s' Hs E1|rewrite app_length; lia].
      - destruct mu; [simpl in Em; lia|]. exists l. left; auto.
      - unfold ga_mutate in E1. apply bind_Some in E1. destruct E1 as (? & _ & E1). apply bind_Some in E1. destruct E1 as (? & _ & E1). inversion E1. rewrite length_set_nth, app_length. lia. }
    destruct Nm as (z & Hz). destruct (unique_repr mu z Hz) as (y & Hy & _). eauto. }
  destruct Hmu as (z & Hz). destruct (selection_ok score npop (ga_unique mu)) as (N1 & _).
  destruct (nth_len (map fst (firstn npop (sel_sort (map (fun x => (x, score x)) (ga_unique mu))))) 0) as (best & Eb).
  { rewrite N1. destruct (ga_unique mu); [inversion Hz|simpl; lia]. }
  rewrite Eb. cbn [bind]. destruct (reset_total (2 * (k + 1)) (nd_sh (drs k)) (ng_data net st)) as ([dt mo] & Er); auto.
  { rewrite (Permutation_length D); auto. }
  rewrite Er. cbn [bind]. match goal with |- context [argmin ?l] => destruct (argmin_Some l) as (ix & lo & ->) end; [|cbn [bind]; eauto].
  destruct (ga_unique mu); [inversion Hz|discriminate].
Qed.

Section Run.
Context (ngen : nat) (lw lp : lh_draw) (sh0 : nat -> nat) (drs : nat -> nga_draw).
Context (Uw : unit_draws (lh_u lw)) (Up : unit_draws (lh_u lp)) (Um : forall t i j, (0 <= gm_u (nd_ga (drs t)) i j <= 1)%Q).
Local Notation run := (nga_evolute net train predict rt m fit ds npop nwarm h ngen lw lp sh0 drs).

Lemma unit_closed u : unit_draws u -> forall i j, (0 <= u i j <= 1)%Q.
Proof. intros H i j. destruct (H i j). lra. Qed.

Lemma first_width : ds <> [] -> Forall (fun d => (d_lo d < d_hi d)%Q) ds -> exists d, nth_error ds 0 = Some d /\ (d_lo d < d_hi d)%Q.
Proof. intros H F. destruct F; [congruence|]. exists x. auto. Qed.

Lemma start_inv warm pop data' mo : ds <> [] -> Forall (fun d => (d_lo d < d_hi d)%Q) ds -> latin nwarm (lh_u lw) (lh_sh lw) ds = Some warm ->
  nga_reset net train nwarm h 0 sh0 (map (fun x => (x, as_min m (fit x))) warm) = Some (data', mo) ->
  latin npop (lh_u lp) (lh_sh lp) ds = Some pop ->
  nga_inv (map (fun x => (x, as_min m (fit x))) warm) pop 0 (NgaSt net pop data' mo [] [] []).
Proof.
  intros Hne Hl Ew Er Ep. destruct (first_width Hne Hl) as (d & Hd & Hw). unfold nga_inv. cbn [ng_pop ng_data ng_models ng_x ng_y ng_trace].
  assert (Lw : length (map (fun x => (x, as_min m (fit x))) warm) = nwarm) by (rewrite map_length; apply latin_rows in Ew; apply Ew).
  destruct (reset_ok _ _ _ _ _ Lw Er) as (P & Bl).
  split; [apply latin_rows in Ep; apply Ep|]. split; [eapply latin_inside; [|exact Ep]; apply unit_closed; auto|]. split; [eapply latin_distinct; eauto|].
  split; [exact P|]. split; [eapply blocks_perm; [apply Permutation_sym; exact P|exact Bl]|].
  do 3 (split; [reflexivity|]). split; [intros [|t]; discriminate|]. split; [discriminate|]. split; [intros [|t]; discriminate|]. split; [auto|]. intros s Hs. discriminate.
Qed.

Lemma nga_report r : ds <> [] -> Forall (fun d => (d_lo d < d_hi d)%Q) ds -> run = Some r ->
  length (nr_x r) = ngen /\ length (nr_y r) = ngen /\ length (nr_trace r) = ngen /\
  (forall t s, nth_error (nr_trace r) t = Some s -> exists x y, nth_error (nr_x r) t = Some x /\ nth_error (nr_y r) t = Some y /\
     gen_ok (map (fun x => (x, as_min m (fit x))) (nr_evals r)) t s x y) /\
  (forall s, nth_error (nr_trace r) 0 = Some s -> latin npop (lh_u lp) (lh_sh lp) ds = Some (ns_parents s)) /\
  (forall t s s', nth_error (nr_trace r) t = Some s -> nth_error (nr_trace r) (S t) = Some s' -> ns_parents s' = ns_next s) /\
  latin nwarm (lh_u lw) (lh_sh lw) ds = Some (nr_evals r) /\ length (nr_evals r) = nwarm /\ Forall (inside (dim_bounds ds)) (nr_evals r).
Proof.
  intros Hne Hl H. unfold nga_evolute in H. apply bind_Some in H. destruct H as (warm & Ew & H). cbv zeta in H.
  apply bind_Some in H. destruct H as ([dt mo] & Er & H). apply bind_Some in H. destruct H as (pop & Ep & H).
  apply bind_Some in H. destruct H as (st & Eg & H). inversion H; subst r; clear H.
  pose proof (start_inv warm pop dt mo Hne Hl Ew Er Ep) as I0.
  assert (Lw : length (map (fun x => (x, as_min m (fit x))) warm) = nwarm) by (rewrite map_length; apply latin_rows in Ew; apply Ew).
  apply (gens_nat _ (nga_inv (map (fun x => (x, as_min m (fit x))) warm) pop)) in Eg; [|intros k s s'; apply nga_step_ok; auto|exact I0].
  simpl in Eg. destruct Eg as (A & B & C & D & E & Lx & Ly & Lt & T & T0 & T1 & _). cbn [nr_x nr_y nr_trace nr_evals].
  split; [exact Lx|]. split; [exact Ly|]. split; [exact Lt|]. split; [exact T|]. split; [intros s Hs; rewrite (T0 s Hs); exact Ep|]. split; [exact T1|].
  split; [exact Ew|]. split; [rewrite map_length in Lw; exact Lw|]. eapply latin_inside; [|exact Ew]. apply unit_closed; auto.
Qed.

Lemma nga_total : ds <> [] -> Forall (fun d => (d_lo d < d_hi d)%Q) ds -> 2 <= npop -> 2 <= h -> h <= third -> exists r, run = Some r.
Proof.
  intros Hne Hl Hp H2 Ht. unfold nga_evolute. pose proof third_le as T3.
  destruct (latin_total nwarm (lh_u lw) (lh_sh lw) ds) as (warm & Ew); [lia|auto|]. rewrite Ew. cbn [bind]. cbv zeta.
  assert (Lw : length (map (fun x => (x, as_min m (fit x))) warm) = nwarm) by (rewrite map_length; apply latin_rows in Ew; apply Ew).
  destruct (reset_total 0 sh0 _ Lw H2 Ht) as ([dt mo] & Er). rewrite Er. cbn [bind].
  destruct (latin_total npop (lh_u lp) (lh_sh lp) ds) as (pop & Ep); [lia|auto|]. rewrite Ep. cbn [bind].
  destruct (gens_nat_total (nga_gen net train predict rt m ds npop nwarm h drs) (nga_inv (map (fun x => (x, as_min m (fit x))) warm) pop) ngen 0 (NgaSt net pop dt mo [] [] [])) as (st & -> & _).
  - intros k s Hk I. destruct (nga_step_total _ _ drs k s Lw Hl Hp H2 Ht I) as (s' & Es). exists s'. split; auto. eapply nga_step_ok; eauto.
  - apply start_inv; auto.
  - cbn [bind]. eauto.
Qed.

Lemma nga_bad_hidden : h < 2 \/ third < h -> run = None.
Proof.
  intros Hh. unfold nga_evolute. destruct (latin nwarm (lh_u lw) (lh_sh lw) ds) as [warm|] eqn:Ew; [|reflexivity]. cbn [bind]. cbv zeta.
  rewrite reset_small; auto. rewrite map_length. apply latin_rows in Ew. apply Ew.
Qed.
Lemma nga_single : npop < 2 -> ngen <> 0 -> run = None.
Proof.
  intros Hp Hg. unfold nga_evolute. destruct (latin nwarm (lh_u lw) (lh_sh lw) ds) as [warm|] eqn:Ew; [|reflexivity]. cbn [bind]. cbv zeta.
  destruct (nga_reset _ _ _ _ _ _ _) as [[dt mo]|]; [|reflexivity]. cbn [bind]. destruct (latin npop _ _ ds) as [pop|] eqn:Ep; [|reflexivity]. cbn [bind].
  apply latin_rows in Ep. destruct Ep as (P1 & _ & P2 & _). destruct pop as [|x [|y pop]]; simpl in P2; [lia| |lia].
  destruct ngen as [|g]; [congruence|]. cbn [gens]. unfold nga_gen at 1. cbv zeta. cbn [ng_pop].
  destruct (nga_update _ _ _ _ _ _ _) as [up|]; [|reflexivity]. cbn [bind]. destruct (nm_nets net up) as [[n0 n1] n2].
  rewrite crossover_single. reflexivity.
Qed.
End Run.
End N.
End S.
