From Coq Require Import Reals List Lia Lra Sorted ZArith.
From Coquelicot Require Import Coquelicot.
From Verif Require Import RM_Model RM_Spec RM_Integrate RM_Eval.
From Coq Require Import List.
Import ListNotations.
Open Scope R_scope.
Lemma adjusted_range pert i : - PI <= adjusted pert i <= PI.
Proof. unfold adjusted. pose proof (adj_range (pert i)). lra. Qed.
Lemma eval_is m pert : fine m -> generic m (adjusted pert) -> eval m pert = Some (worth m (adjusted pert)).
Proof.
  intros Hm Hg. destruct (zetatildes_is m Hm (adjusted pert)) as (z & Ez & Hz); [intros; apply adjusted_range|].
  unfold eval. fold (adjusted pert). rewrite Ez. cbn [bind].
  rewrite (mapM_some _ (fun i => squared m i (adjusted pert i))).
  - cbn [bind]. f_equal. unfold worth, drums. cbn [seq map combine total fold_right fst snd sum_f_R0]. rewrite !Hz. ring.
  - intros i Hi. apply drums_in in Hi. apply difference_is; auto. apply adjusted_range.
Qed.
(** ** Derivatives *)
Lemma derive_window (f : R -> R) c x : (forall t, continuous f t) -> is_derive (fun t => RInt f (t - c) (t + c)) x (f (x + c) - f (x - c)).
Proof.
  intros Hf. assert (Hex : forall u v, ex_RInt f u v) by (intros u v; apply (ex_RInt_continuous (V := R_CompleteNormedModule)); auto).
  assert (HF : forall y, is_derive (fun u => RInt f 0 u) y (f y)).
  { intros y. apply (is_derive_RInt (V := R_NormedModule) f _ 0 y); [|apply Hf]. apply filter_forall. intros u. apply (RInt_correct (V := R_CompleteNormedModule)). apply Hex. }
  apply (is_derive_ext (fun t => RInt f 0 (t + c) - RInt f 0 (t - c))).
  - intros t. symmetry. now apply RInt_split.
  - apply (is_derive_minus (V := R_NormedModule)).
    + replace (f (x + c)) with (scal 1 (f (x + c))) by apply (scal_one (V := R_NormedModule)).
      apply (is_derive_comp (fun u => RInt f 0 u) (fun t => t + c)); [apply HF|]. auto_derive; [trivial|ring].
    + replace (f (x - c)) with (scal 1 (f (x - c))) by apply (scal_one (V := R_NormedModule)).
      apply (is_derive_comp (fun u => RInt f 0 u) (fun t => t - c)); [apply HF|]. auto_derive; [trivial|ring].
Qed.
Section Deriv.
Variable m : reactor.
Hypothesis Hm : fine m.
Variable th : nat -> R.
Variable k : nat.
Hypothesis Hk : (k < 8)%nat.
Definition hi : R := current m k (th k + cangle k / 2).
Definition lo : R := current m k (th k - cangle k / 2).
Lemma turn_self : forall i, turn th k (th k) i = th i.
Proof. intros i. unfold turn. destruct (Nat.eqb_spec i k) as [->|]; reflexivity. Qed.
Lemma derive_absorbed i : is_derive (fun t => absorbed m i (turn th k t i)) (th k) (if Nat.eqb i k then hi - lo else 0).
Proof.
  unfold turn. destruct (Nat.eqb_spec i k) as [->|].
  - unfold absorbed. apply derive_window. now apply cont.
  - apply (is_derive_const (V := R_NormedModule)).
Qed.
Lemma derive_squared i : is_derive (fun t => squared m i (turn th k t i)) (th k) (if Nat.eqb i k then hi ^ 2 - lo ^ 2 else 0).
Proof.
  unfold turn. destruct (Nat.eqb_spec i k) as [->|].
  - unfold squared. replace (hi ^ 2 - lo ^ 2) with ((hi ^ 2 - lo ^ 2) - 0) by ring.
    apply (is_derive_minus (V := R_NormedModule)); [|apply (is_derive_const (V := R_NormedModule))].
    apply (derive_window (fun s => current m k s ^ 2)). now apply cont2.
  - apply (is_derive_const (V := R_NormedModule)).
Qed.
Lemma derive_zeta j : is_derive (fun t => zeta m (turn th k t) j) (th k) (alphas m j (S k) * (- hi + lo)).
Proof.
  unfold zeta. replace (alphas m j (S k) * (- hi + lo)) with (0 + alphas m j (S k) * (- hi + lo)) by ring.
  apply (is_derive_plus (V := R_NormedModule)); [apply (is_derive_const (V := R_NormedModule))|].
  rewrite <- (sum_single 7 k (fun i => alphas m j (S i) * (- hi + lo))) by lia.
  apply (is_derive_sum (fun i t => alphas m j (S i) * (1 - absorbed m i (turn th k t i)))). intros i Hi.
  replace (if Nat.eqb i k then alphas m j (S i) * (- hi + lo) else 0) with (alphas m j (S i) * (0 - (if Nat.eqb i k then hi - lo else 0)))
    by (destruct (Nat.eqb i k); ring).
  apply is_derive_scal. apply (is_derive_minus (V := R_NormedModule)); [apply (is_derive_const (V := R_NormedModule))|apply derive_absorbed].
Qed.
Lemma zeta_ext th' th'' j : (forall i, th' i = th'' i) -> zeta m th' j = zeta m th'' j.
Proof. intros H. unfold zeta. f_equal. apply sum_ext. intros i _. now rewrite H. Qed.
Lemma derive_worth : is_derive (fun t => worth m (turn th k t)) (th k)
  (sum_f_R0 (fun j => alphas m j (S k) * (- hi + lo) * squared m j (th j)) 7 + zeta m th k * (hi ^ 2 - lo ^ 2)).
Proof.
  unfold worth. rewrite <- (sum_single 7 k (fun j => zeta m th j * (hi ^ 2 - lo ^ 2))) by lia. rewrite <- plus_sum.
  apply (is_derive_sum (fun j t => zeta m (turn th k t) j * squared m j (turn th k t j))). intros j Hj.
  replace (alphas m j (S k) * (- hi + lo) * squared m j (th j) + (if Nat.eqb j k then zeta m th j * (hi ^ 2 - lo ^ 2) else 0))
    with (alphas m j (S k) * (- hi + lo) * squared m j (turn th k (th k) j) + zeta m (turn th k (th k)) j * (if Nat.eqb j k then hi ^ 2 - lo ^ 2 else 0)).
  - apply (is_derive_mult (fun t => zeta m (turn th k t) j) (fun t => squared m j (turn th k t j))); [apply derive_zeta|apply derive_squared|intros; apply Rmult_comm].
  - rewrite turn_self, (zeta_ext _ th) by apply turn_self. destruct (Nat.eqb j k); ring.
Qed.
End Deriv.
Lemma evald_is m pert k : fine m -> generic m (adjusted pert) -> (k < 8)%nat -> exists d, evald m pert k = Some d
  /\ is_derive (fun t => worth m (turn (adjusted pert) k t)) (adjusted pert k) d.
Proof.
  intros Hm Hg Hk. destruct (zetatildes_is m Hm (adjusted pert)) as (z & Ez & Hz); [intros; apply adjusted_range|].
  destruct (Hm k Hk) as (H1 & H2 & H3). pose proof (adjusted_range pert k) as Hr. pose proof (cangle_bounds k Hk) as Hc.
  eexists. split; [|apply (derive_worth m Hm (adjusted pert) k Hk)].
  unfold evald, evald_with. fold (adjusted pert). change (adj (pert k)) with (adjusted pert k).
  rewrite !interp1d_some by (first [exact H1 | apply (covers_sub _ _ _ _ _ H2); lra]). cbn [bind].
  fold (adjusted pert). rewrite Ez. cbn [bind]. rewrite (mapM_some _ (fun i => squared m i (adjusted pert i))).
  - cbn [bind]. f_equal. unfold hi, lo, current. rewrite Hz. unfold drums. cbn [seq map combine total fold_right fst snd sum_f_R0]. ring.
  - intros i Hi. apply drums_in in Hi. apply difference_is; auto. apply adjusted_range.
Qed.
(** ** The gradient *)
Lemma zetatildes_ext m th th' : (forall i, (i < 8)%nat -> th i = th' i) -> zetatildes m th = zetatildes m th'.
Proof.
  intros H. unfold zetatildes. rewrite (mapM_ext (gammastar m th) (gammastar m th')); [reflexivity|].
  intros i Hi. apply drums_in in Hi. unfold gammastar. now rewrite H.
Qed.
Lemma evalg_is m pert : (forall i, (i < 8)%nat -> - PI < pert i <= PI) -> fine m -> evalg m pert = mapM (evald m pert) drums.
Proof.
  intros Hp Hm. assert (E : zetatildes m pert = zetatildes m (adjusted pert)).
  { apply zetatildes_ext. intros i Hi. unfold adjusted. now rewrite adj_id by auto. }
  destruct (zetatildes_is m Hm (adjusted pert)) as (z & Ez & Hz); [intros; apply adjusted_range|].
  unfold evalg. rewrite E, Ez. cbn [bind]. apply mapM_ext. intros k Hk. unfold evald, evald_with. fold (adjusted pert). rewrite Ez. reflexivity.
Qed.
Lemma integrate_beyond ks lb ub : lb < ub -> Forall (fun p => fst p < lb) ks -> integrate ks lb ub = None.
Proof.
  intros Hlt Hf. unfold integrate, integrate_with.
  assert (E : filter (fun i => andb (ltb lb (fst (nth i ks (0, 0)))) (ltb (fst (nth i ks (0, 0))) ub)) (seq 0 (length ks)) = []).
  { pose proof (filter_fail (fun x => andb (ltb lb (fst x)) (ltb (fst x) ub)) ks [] []) as H. cbn [app length] in H. rewrite app_nil_r in H. apply H.
    eapply Forall_impl; [|exact Hf]. cbn. intros x Hx. rewrite (proj2 (ltb_false lb (fst x))); [reflexivity|lra]. }
  rewrite E. pose proof (searchsorted_mid ks [] lb Hf (Forall_nil _)) as Es. rewrite app_nil_r in Es. rewrite Es.
  assert (at_index ks (Z.of_nat (length ks)) = None) as ->.
  { unfold at_index. destruct (Z.ltb_spec (Z.of_nat (length ks)) 0); [lia|]. rewrite Nat2Z.id. now apply nth_error_None. }
  now destruct (at_index ks _).
Qed.
Lemma beyond (ks : table) : exists b, forall p, In p ks -> fst p < b.
Proof.
  induction ks as [|a ks [b IH]]; [exists 0; intros p []|]. exists (Rmax b (fst a + 1)). intros p [<-|Hp].
  - pose proof (Rmax_r b (fst a + 1)). lra.
  - pose proof (Rmax_l b (fst a + 1)). specialize (IH p Hp). lra.
Qed.
Lemma evalg_beyond m pert : exists n : nat, let far := fun i => pert i + 2 * PI * INR n in
  (forall i, adj (far i) = adj (pert i)) /\ evalg m far = None.
Proof.
  destruct (beyond (jm m 0)) as [b Hb]. pose proof two_pi as HP.
  destruct (archimed ((b - (pert 0%nat - cangle 0 / 2)) / (2 * PI))) as [Ha _].
  set (n := Z.to_nat (up ((b - (pert 0%nat - cangle 0 / 2)) / (2 * PI)))). exists n. cbv zeta.
  assert (Hn : (b - (pert 0%nat - cangle 0 / 2)) / (2 * PI) <= INR n).
  { unfold n. rewrite INR_IZR_INZ. apply Rlt_le. eapply Rlt_le_trans; [exact Ha|]. apply IZR_le. lia. }
  split.
  - intros i. rewrite INR_IZR_INZ. apply adj_period.
  - unfold evalg, zetatildes. rewrite (mapM_none _ drums 0%nat); [reflexivity|apply drums_in; lia|].
    unfold gammastar. rewrite integrate_beyond; [reflexivity| |].
    + pose proof (cangle_bounds 0 ltac:(lia)). lra.
    + apply Forall_forall. intros p Hp. specialize (Hb p Hp).
      assert (b - (pert 0%nat - cangle 0 / 2) <= 2 * PI * INR n).
      { replace (b - (pert 0%nat - cangle 0 / 2)) with (2 * PI * ((b - (pert 0%nat - cangle 0 / 2)) / (2 * PI))) by (field; lra).
        apply Rmult_le_compat_l; lra. }
      lra.
Qed.
Lemma eval_period m pert (n : nat -> Z) : eval m (fun i => pert i + 2 * PI * IZR (n i)) = eval m pert.
Proof.
  unfold eval. rewrite (zetatildes_ext m _ (adjusted pert)) by (intros; apply adj_period).
  rewrite (mapM_ext _ (difference m (adjusted pert))); [reflexivity|]. intros i Hi. unfold difference. now rewrite adj_period.
Qed.
(** ** Findings *)
Definition bend : table := [(0, 0); (1, 0); (2, 2)].
Lemma bend_wrong : integrate bend 1 (3 / 2) = Some 0 /\ integrate_sq bend 1 (3 / 2) = Some 0
  /\ is_RInt (interpolate bend) 1 (3 / 2) (1 / 4).
Proof.
  assert (E : forall sq, integrate_with (block sq) bend 1 (3 / 2) = Some 0).
  { intros sq. unfold integrate_with. cbn [length bend seq filter nth fst].
    rewrite (proj2 (ltb_false 1 0)), (proj2 (ltb_false 1 1)), (proj2 (ltb_false 2 (3 / 2))), Bool.andb_false_r by lra. cbn [andb].
    unfold searchsorted. cbn [bend filter fst]. rewrite (proj2 (ltb_true 0 1)), (proj2 (ltb_false 1 1)), (proj2 (ltb_false 2 1)) by lra.
    cbn.
    change (Pos.to_nat 1) with 1%nat. cbn [nth_error bend bind]. f_equal. unfold line. cbn. destruct sq; cbn; unfold piece_sq, piece; field. }
  split; [exact (E false)|]. split; [exact (E true)|].
  assert (Hs : increasing bend) by (repeat constructor; cbn; lra).
  pose proof (cell_int false [(0, 0)] (1, 0) (2, 2) [] 1 (3 / 2) Hs) as H. cbn [fst] in H.
  specialize (H ltac:(lra) ltac:(lra) ltac:(lra)).
  replace (1 / 4) with (block false 1 (line (1, 0) (2, 2) 1) (3 / 2) (line (1, 0) (2, 2) (3 / 2))); [exact H|].
  unfold block, piece, line. cbn. field.
Qed.
Lemma nominal_raises m pert l : length l = 8%nat -> (exists e, eval_py m pert (Array l) = inr e) /\ exists e, eval_py m pert (Sequence l) = inr e.
Proof.
  intros Hl. unfold eval_py. destruct (eval_one m pert) as [r|e]; [|split; eauto]. destruct l as [|x [|y l]]; try discriminate. cbn. split; eauto.
Qed.
(** ** Statements *)
Lemma integrals_exact ks lb ub : increasing ks -> covers ks lb ub -> lb < ub -> ~ knot ks lb \/ knot_between ks lb ub ->
  exists f v w, follows f ks /\ integrate ks lb ub = Some v /\ is_RInt f lb ub v
    /\ integrate_sq ks lb ub = Some w /\ is_RInt (fun t => f t ^ 2) lb ub w.
Proof.
  intros H1 H2 H3 H4. destruct (integrate_exact false ks lb ub H1 H2 H3 H4) as (v & Ev & Hv). destruct (integrate_exact true ks lb ub H1 H2 H3 H4) as (w & Ew & Hw).
  exists (interpolate ks), v, w. split; [now apply interpolate_follows|]. auto.
Qed.
Lemma knot_wrong : exists ks lb ub, increasing ks /\ covers ks lb ub /\ lb < ub /\ knot ks lb /\ integrate ks lb ub = Some 0
  /\ forall f, follows f ks -> is_RInt f lb ub (1 / 4).
Proof.
  destruct bend_wrong as (E & _ & HI). assert (Hs : increasing bend) by (repeat constructor; cbn; lra).
  exists bend, 1, (3 / 2). split; [exact Hs|]. split; [exists (0, 0), (2, 2); cbn; repeat split; auto; lra|]. split; [lra|].
  split; [exists (1, 0); cbn; auto|]. split; [exact E|].
  intros f [_ Hf]. eapply is_RInt_ext; [|exact HI]. intros t [H1 H2]. rewrite Rmin_left in H1 by lra. rewrite Rmax_right in H2 by lra.
  destruct (interpolate_follows bend Hs) as [_ Hi].
  rewrite (Hf [(0, 0)] (1, 0) (2, 2) [] eq_refl t), (Hi [(0, 0)] (1, 0) (2, 2) [] eq_refl t); [reflexivity|cbn; lra|cbn; lra].
Qed.
Lemma last_in {A} (l : list A) : forall x d, In (last (x :: l) d) (x :: l).
Proof. induction l as [|y l IH]; intros x d; [now left|]. right. apply (IH y d). Qed.
Lemma interpolant ks : increasing ks -> ks <> nil -> exists f, follows f ks /\ (forall t, continuous f t)
  /\ forall t, (covers ks t t -> interp1d ks t = Some (f t)) /\ (~ covers ks t t -> interp1d ks t = None).
Proof.
  intros Hs Hn. exists (interpolate ks). split; [now apply interpolate_follows|]. split; [now apply interpolate_continuous|].
  intros t. split; [now apply interp1d_some|]. intros Hc. destruct ks as [|a ks]; [reflexivity|]. unfold interp1d.
  destruct (Rlt_dec t (fst a)); [reflexivity|]. destruct (Rlt_dec (fst (last (a :: ks) a)) t); [reflexivity|].
  exfalso. apply Hc. exists a, (last (a :: ks) a). repeat split; [now left|apply last_in|lra|lra].
Qed.
Lemma angles t : - PI < adj t <= PI /\ (exists k : Z, adj t = t + 2 * PI * IZR k)
  /\ (forall k : Z, adj (t + 2 * PI * IZR k) = adj t) /\ (- PI < t <= PI -> adj t = t).
Proof. split; [apply adj_range|]. split; [apply adj_turns|]. split; [apply adj_period|apply adj_id]. Qed.
Lemma squared_ext m th th' i : th i = th' i -> squared m i (th i) = squared m i (th' i).
Proof. now intros ->. Qed.
Lemma worth_ext m th th' : (forall i, (i < 8)%nat -> th i = th' i) -> worth m th = worth m th'.
Proof.
  intros H. unfold worth. apply sum_ext. intros j Hj. rewrite (H j) by lia. f_equal. unfold zeta. f_equal. apply sum_ext. intros i Hi. now rewrite (H i) by lia.
Qed.
Lemma gradient m pert : (forall i, (i < 8)%nat -> - PI < pert i <= PI) -> fine m -> generic m pert -> exists ds,
  evalg m pert = Some ds /\ length ds = 8%nat
  /\ forall k, (k < 8)%nat -> is_derive (fun t => worth m (turn pert k t)) (pert k) (nth k ds 0).
Proof.
  intros Hp Hm Hg. assert (Ha : forall i, (i < 8)%nat -> adjusted pert i = pert i) by (intros i Hi; now apply adj_id; auto).
  assert (Hg' : generic m (adjusted pert)). { intros i Hi. rewrite Ha by assumption. now apply Hg. }
  set (d := fun k => match evald m pert k with Some v => v | None => 0 end).
  assert (Hd : forall k, (k < 8)%nat -> evald m pert k = Some (d k) /\ is_derive (fun t => worth m (turn pert k t)) (pert k) (d k)).
  { intros k Hk. destruct (evald_is m pert k Hm Hg' Hk) as (v & E & Hv). unfold d. rewrite E. split; [reflexivity|].
    rewrite <- (Ha k Hk). eapply is_derive_ext; [|exact Hv]. intros t. apply worth_ext. intros i Hi. unfold turn. destruct (Nat.eqb i k); auto. }
  exists (map d drums). split; [|split; [reflexivity|]].
  - rewrite evalg_is by assumption. apply mapM_some. intros k Hk. apply drums_in in Hk. now apply Hd.
  - intros k Hk. assert (nth k (map d drums) 0 = d k) as ->; [|now apply Hd].
    rewrite (nth_indep _ 0 (d 0%nat)) by (rewrite map_length; exact Hk). rewrite map_nth. unfold drums. rewrite seq_nth by assumption. reflexivity.
Qed.
Lemma far_raises m pert : exists n : nat, let far := fun i => pert i + 2 * PI * INR n in eval m far = eval m pert /\ evalg m far = None.
Proof.
  destruct (evalg_beyond m pert) as (n & _ & H). exists n. split; [|exact H].
  pose proof (eval_period m pert (fun _ => Z.of_nat n)) as E. cbv beta in E. rewrite <- INR_IZR_INZ in E. exact E.
Qed.
