(** Whole runs: the results about evolute, and that it does not raise. *)
From Coq Require Import List Arith ZArith QArith Bool Permutation Sorted Lia Lqa.
From Verif Require Import Base BaseFacts Space_Model Opt_Model Opt_Facts Opt_Facts2 Opt_Spec AEO_Model AEO_Spec AEO_Sort AEO_Matrix AEO_Proofs AEO_Run.
Import ListNotations.
Open Scope nat_scope.

Section Top.
Context (pw : Q -> Q -> Q) (pa : apar) (ev : strategies) (dr : adraw) (Ncyc : nat).
Context (fit : list Q -> Q).

Lemma evolute_loop algs stop before x0 pop0 x y st :
  aeo_evolute pw pa ev dr Ncyc fit algs stop before x0 pop0 = Some (x, y, st) ->
  length x0 = length pop0 /\
  aeo_loop pw pa ev dr Ncyc stop 1 Ncyc (ASt (initial algs x0 pop0) [] before) = Some st /\
  exists b, argmin (map fit (as_seen st)) = Some (b, y) /\ nth_error (as_seen st) b = Some x.
Proof.
  unfold aeo_evolute. destruct (length x0 =? length pop0) eqn:E; [|discriminate]. apply Nat.eqb_eq in E. cbn [negb].
  intros H. apply bind_Some in H as (st' & E1 & H). apply bind_Some in H as ([b v] & E2 & H). apply bind_Some in H as (x' & E3 & H).
  injection H as <- <- <-. eauto.
Qed.
Lemma good_sane l : Forall good l -> Forall sane l.
Proof. intros H. eapply Forall_impl; [|exact H]. intros p Hp. now left. Qed.
Lemma good_step l : Forall good l -> Forall in_step l.
Proof. intros H. eapply Forall_impl; [|exact H]. intros p Hp. apply Hp. Qed.
Lemma fresh_sane l : Forall fresh l -> Forall sane l.
Proof. intros H. eapply Forall_impl; [|exact H]. intros p Hp. now right. Qed.

Lemma run_migration algs stop before x0 pop0 x y st : draws_ok dr ->
  aeo_evolute pw pa ev dr Ncyc fit algs stop before x0 pop0 = Some (x, y, st) ->
  Forall (fun lg => migration (cl_before lg) (cl_after lg) /\ Permutation (individuals (cl_before lg)) (individuals (cl_after lg)) /\
                    Forall in_step (cl_before lg) /\ Forall in_step (cl_after lg)) (as_logs st).
Proof.
  intros Hd H. apply evolute_loop in H as (_ & H & _).
  refine (proj2 (loop_inv pw pa ev dr Ncyc (Forall sane) _ stop _ _ _ _ _ _ _ H)).
  - intros c ps ps' lg seen Hs E. destruct (cycle_good _ _ _ _ _ fit _ _ _ _ _ Hd Hs E) as (G1 & G2 & G3 & G4 & _).
    split; [apply good_sane, G2|]. rewrite G3. split; [auto|]. split; [apply migration_conserves; auto using good_step|].
    split; auto using good_step.
  - apply fresh_sane, initial_fresh.
  - constructor.
Qed.
Lemma run_own algs stop before x0 pop0 x y st : draws_ok dr -> honest fit ev ->
  aeo_evolute pw pa ev dr Ncyc fit algs stop before x0 pop0 = Some (x, y, st) ->
  Forall (fun lg => Forall (own_values fit) (cl_before lg) /\ Forall (own_values fit) (cl_after lg)) (as_logs st).
Proof.
  intros Hd Hh H. apply evolute_loop in H as (_ & H & _).
  refine (proj2 (loop_inv pw pa ev dr Ncyc (fun l => Forall sane l /\ Forall (fun p => good p -> own_values fit p) l) _ stop _ _ _ _ _ _ _ H)).
  - intros c ps ps' lg seen [Hs Ho] E. destruct (cycle_good _ _ _ _ _ fit _ _ _ _ _ Hd Hs E) as (G1 & G2 & G3 & _ & _ & _ & G4).
    destruct (G4 Hh Ho) as [K1 K2]. rewrite G3. split; [split; [apply good_sane, G2 | eapply Forall_impl; [|exact K2]; auto] | auto].
  - cbn. split; [apply fresh_sane, initial_fresh|]. eapply Forall_impl; [|apply initial_fresh].
    intros p [_ Hl] (_ & _ & Hl'). contradiction.
  - constructor.
Qed.
Lemma individuals_length ps : length (individuals ps) = list_sum (map (fun p => length (ap_mem p)) ps).
Proof. unfold individuals, list_sum. induction ps; cbn; auto. rewrite app_length. lia. Qed.
Lemma run_count algs stop before x0 pop0 x y st : draws_ok dr ->
  aeo_evolute pw pa ev dr Ncyc fit algs stop before x0 pop0 = Some (x, y, st) ->
  let n := length (individuals (initial algs x0 pop0)) in
  Forall (fun lg => length (cl_before lg) = length algs /\ length (cl_after lg) = length algs /\
                    length (individuals (cl_before lg)) = n /\ length (individuals (cl_after lg)) = n) (as_logs st).
Proof.
  intros Hd H n. apply evolute_loop in H as (_ & H & _).
  refine (proj2 (loop_inv pw pa ev dr Ncyc (fun l => Forall sane l /\ length l = length algs /\ length (individuals l) = n) _ stop _ _ _ _ _ _ _ H)).
  - intros c ps ps' lg seen (Hs & Hl & Hn) E. destruct (cycle_good _ _ _ _ _ fit _ _ _ _ _ Hd Hs E) as (G1 & G2 & G3 & G4 & G5 & G6 & _).
    assert (L1 : length (cl_before lg) = length algs) by (rewrite <- Hl; symmetry; eapply Forall2_length; eauto).
    assert (L2 : length ps' = length algs) by (rewrite <- L1; symmetry; eapply Forall2_length; eauto).
    assert (N1 : length (individuals (cl_before lg)) = n).
    { rewrite <- Hn, !individuals_length. f_equal. clear -G5. induction G5 as [|p q l m [Hp _] _ IH]; cbn; congruence. }
    assert (N2 : length (individuals ps') = n).
    { rewrite <- N1. symmetry. apply Permutation_length, migration_conserves; auto using good_step. }
    rewrite G3. auto 10 using good_sane.
  - cbn. split; [apply fresh_sane, initial_fresh|]. split; [apply initial_length | reflexivity].
  - constructor.
Qed.
Lemma run_probs algs stop before x0 pop0 x y st : power_ok pw ->
  aeo_evolute pw pa ev dr Ncyc fit algs stop before x0 pop0 = Some (x, y, st) -> Forall probabilities (as_logs st).
Proof.
  intros Hp H. apply evolute_loop in H as (_ & H & _).
  refine (proj2 (loop_inv pw pa ev dr Ncyc (fun _ => True) _ stop _ _ _ _ _ I _ H)); [|constructor].
  intros c ps ps' lg seen _ E. destruct (cycle_ok _ _ _ _ _ _ _ _ _ _ E) as (? & ? & _ & _ & _ & _ & _ & _ & _ & K). auto.
Qed.

(** Who starts where. *)
Lemma initial_perm_aux (x0 : list (list Q)) : forall pop0 k n, length x0 = length pop0 -> Forall (fun i => k <= i < k + n) pop0 ->
  Permutation (concat (map (fun i => map fst (filter (fun xp => snd xp =? i) (combine x0 pop0))) (seq k n))) x0.
Proof.
  induction x0 as [|x x0 IH]; intros [|i pop0] k n Hl Hf; try discriminate.
  - cbn. clear. induction (seq k n); cbn; auto.
  - inversion Hf as [|? ? Hi Hf']; subst. specialize (IH pop0 k n ltac:(cbn in Hl; lia) Hf'). cbn [combine filter snd].
    eapply Permutation_trans; [|apply perm_skip, IH]. clear IH. replace n with ((i - k) + S (n - S (i - k))) by lia. rewrite seq_app.
    replace (k + (i - k)) with i by lia. cbn [seq]. rewrite !map_app, !concat_app. cbn [map concat].
    rewrite Nat.eqb_refl. cbn [map fst app].
    assert (E : forall l, ~ In i l -> map (fun i0 => map fst (if i =? i0 then (x, i) :: filter (fun xp => snd xp =? i0) (combine x0 pop0) else filter (fun xp => snd xp =? i0) (combine x0 pop0))) l
                = map (fun i0 => map fst (filter (fun xp => snd xp =? i0) (combine x0 pop0))) l).
    { intros l Hn. apply map_ext_in. intros j Hj. replace (i =? j) with false by (symmetry; apply Nat.eqb_neq; intros ->; auto). reflexivity. }
    rewrite !E by (intros X; apply in_seq in X; lia). rewrite <- Permutation_middle. reflexivity.
Qed.
Lemma initial_mem algs x0 pop0 : individuals (initial algs x0 pop0) =
  concat (map (fun i => map fst (filter (fun xp => snd xp =? i) (combine x0 pop0))) (seq 0 (length algs))).
Proof.
  unfold individuals, initial. rewrite map_map. f_equal.
  assert (G : forall k, map (fun x => ap_mem (let '(i, a) := x in APop a (map fst (filter (fun xp => snd xp =? i) (combine x0 pop0)))
     [] (length (map fst (filter (fun xp => snd xp =? i) (combine x0 pop0)))) [] 0)) (combine (seq k (length algs)) algs)
     = map (fun i => map fst (filter (fun xp => snd xp =? i) (combine x0 pop0))) (seq k (length algs))).
  { induction algs as [|a algs IH]; intros k; cbn [length seq combine map]; auto. f_equal. apply IH. }
  apply G.
Qed.
Lemma initial_perm algs x0 pop0 : length x0 = length pop0 -> Forall (fun i => i < length algs) pop0 ->
  Permutation (individuals (initial algs x0 pop0)) x0.
Proof.
  intros Hl Hf. rewrite initial_mem. apply initial_perm_aux; auto. eapply Forall_impl; [|exact Hf]. cbn. intros. lia.
Qed.

(** The reported best. *)
Lemma run_best algs stop before x0 pop0 x y st :
  aeo_evolute pw pa ev dr Ncyc fit algs stop before x0 pop0 = Some (x, y, st) -> best_of Mmin fit (as_seen st) x y /\ incl before (as_seen st).
Proof.
  intros H. apply evolute_loop in H as (_ & H & b & E1 & E2). split.
  - apply argmin_spec in E1. destruct E1 as (K1 & K2 & _). rewrite nth_error_map, E2 in K1. cbn in K1. injection K1 as K1.
    split; [eapply nth_error_In; eauto|]. split; [rewrite K1; reflexivity|]. intros z Hz. cbn. apply (K2 (fit z)). apply in_map, Hz.
  - assert (G : forall todo c s s', aeo_loop pw pa ev dr Ncyc stop c todo s = Some s' -> incl (as_seen s) (as_seen s')).
    { clear. induction todo as [|t IH]; intros c s s' H; cbn [aeo_loop] in H; [injection H as <-; apply incl_refl|].
      apply bind_Some in H as ([[ps lg] seen] & E & H). destruct (stop c); [injection H as <-; cbn; apply incl_appl, incl_refl|].
      apply IH in H. cbn in H. eapply incl_tran; [|exact H]. apply incl_appl, incl_refl. }
    exact (G _ _ _ _ H).
Qed.
End Top.
