(** Proofs about Differential Evolution. *)
From Coq Require Import List Arith ZArith QArith Bool Lia Lqa Sorted.
From Verif Require Import Base BaseFacts Space_Model Space_Spec Space_Facts Opt_Model Opt_Spec Opt_Facts Opt_Facts2 DE_Model.
Import ListNotations.
Open Scope nat_scope.

Lemma recombine_spec CR cr : forall target donor k, length donor = length target ->
  exists r, recombine CR cr k donor target = Some r /\ length r = length target /\
    forall i x v, nth_error target i = Some x -> nth_error donor i = Some v ->
      nth_error r i = Some (if Qle_bool (cr (k + i)) CR then v else x).
Proof.
  induction target as [|x t IH]; intros [|v d] k L; simpl in L; try lia; cbn [recombine].
  - exists []. repeat split; auto. intros [|i]; discriminate.
  - destruct (IH d (S k) ltac:(lia)) as (r & -> & L2 & N). cbn [bind].
    eexists. split; [reflexivity|]. split; [simpl; lia|].
    intros [|i] x' v' Hx Hv; cbn [nth_error] in *.
    + inversion Hx; inversion Hv; subst. rewrite Nat.add_0_r. reflexivity.
    + rewrite (N i x' v' Hx Hv). replace (S k + i) with (k + S i) by lia. reflexivity.
Qed.
Lemma recombine_inside CR cr b : forall target donor k r, inside b donor -> inside b target ->
  recombine CR cr k donor target = Some r -> inside b r.
Proof.
  intros target donor k r D T. revert target donor k r D T.
  induction b as [|[lo hi] b IH]; intros target donor k r D T H; inversion D; inversion T; subst; cbn [recombine] in H.
  - inversion H. constructor.
  - apply bind_Some in H. destruct H as (r' & Hr & H). inversion H; subst.
    constructor; [destruct (Qle_bool _ _); auto|]. eapply IH; [| |exact Hr]; auto.
Qed.

Lemma filter_split {A} (f : A -> bool) l : length (filter f l) + length (filter (fun x => negb (f x)) l) = length l.
Proof. induction l as [|a l IH]; simpl; auto. destruct (f a); simpl; lia. Qed.
Lemma in_candidates n j i : In i (filter (fun i => negb (i =? j)) (seq 0 n)) <-> i < n /\ i <> j.
Proof.
  rewrite filter_In, in_seq. split; intros [H1 H2]; split; try lia.
  - intros ->. rewrite Nat.eqb_refl in H2. discriminate.
  - destruct (Nat.eqb_spec i j); auto.
Qed.
Lemma candidates_length n j : j < n -> length (filter (fun i => negb (i =? j)) (seq 0 n)) = n - 1.
Proof.
  intros H. assert (E : length (filter (fun i => i =? j) (seq 0 n)) = 1).
  { replace (seq 0 n) with (seq 0 j ++ j :: seq (S j) (n - S j)).
    - rewrite filter_app. simpl. rewrite Nat.eqb_refl.
      assert (F : forall l, ~ In j l -> filter (fun i => i =? j) l = []).
      { induction l as [|a l IH]; simpl; auto. intros N. destruct (Nat.eqb_spec a j); [exfalso; auto|apply IH; auto]. }
      rewrite !F by (rewrite in_seq; lia). reflexivity.
    - change (j :: seq (S j) (n - S j)) with (seq j (S (n - S j))).
      replace (seq j (S (n - S j))) with (seq (0 + j) (S (n - S j))) by reflexivity.
      rewrite <- seq_app. f_equal. lia. }
  pose proof (filter_split (fun i => i =? j) (seq 0 n)) as FL. rewrite seq_length in FL. lia.
Qed.

Section DE.
Context (expf : Q -> Q) (m : mode) (fit : list Q -> Q) (p : de_par) (ngen : nat).
Context (W : wf_dims (de_dims p)) (K : keeps_ints (de_method p) (de_dims p)) (R : respects fit).
Let g := fun x => as_max m (fit x).

Definition pop_ok (pop : list (list Q)) : Prop := length pop = de_npop p /\ Forall (feasible (de_dims p)) pop.

Lemma de_bounds_eq : de_bounds p = dim_bounds (de_dims p).
Proof. reflexivity. Qed.

Lemma arg_id x : feasible (de_dims p) x -> de_arg p x = x.
Proof. intros F. unfold de_arg. rewrite de_bounds_eq. apply clip_id; auto. apply feasible_inside; auto. Qed.
Lemma score_g x : feasible (de_dims p) x -> de_score m fit p x = g x.
Proof. intros F. unfold de_score. rewrite arg_id by auto. reflexivity. Qed.

Lemma donor_inside x1 x2 x3 : feasible (de_dims p) x1 -> feasible (de_dims p) x2 -> feasible (de_dims p) x3 ->
  inside (dim_bounds (de_dims p)) (clip_vec (de_bounds p) (map2 (fun a c => a + de_F p * c)%Q x1 (map2 (fun a c => a - c)%Q x2 x3))).
Proof.
  intros F1 F2 F3. apply feasible_length in F1, F2, F3.
  apply clip_inside; auto. rewrite map2_length; [auto|]. rewrite map2_length; congruence.
Qed.

(** Trial of individual [j]: distinct donors, coordinates from the donor or the target. *)
Lemma de_one_spec pop j dr pop' v : pop_ok pop -> j < de_npop p ->
  de_one expf p ngen pop (j, dr) = Some (pop', v) ->
  exists i1 i2 i3 x1 x2 x3 xt trial,
    NoDup [j; i1; i2; i3] /\ i1 < de_npop p /\ i2 < de_npop p /\ i3 < de_npop p /\
    nth_error pop i1 = Some x1 /\ nth_error pop i2 = Some x2 /\ nth_error pop i3 = Some x3 /\ nth_error pop j = Some xt /\
    (forall i d a b c x, nth_error (de_dims p) i = Some d -> nth_error x1 i = Some a -> nth_error x2 i = Some b ->
       nth_error x3 i = Some c -> nth_error xt i = Some x ->
       nth_error trial i = Some (if Qle_bool (dd_cr dr i) (de_CR p)
                                 then clip1 (d_lo d) (d_hi d) (a + de_F p * (b - c)) else x)) /\
    inside (dim_bounds (de_dims p)) trial /\
    ensure_discrete expf (1 - inject_Z (Z.of_nat j) * (1 / inject_Z (Z.of_nat ngen))) (de_method p) (dd_vr dr) (dd_vp dr) (de_dims p) trial = Some v /\
    exists xt', ensure_discrete expf (1 - inject_Z (Z.of_nat j) * (1 / inject_Z (Z.of_nat ngen))) (de_method p) (dd_tr dr) (dd_tp dr) (de_dims p) xt = Some xt' /\ pop' = set_nth pop j xt'.
Proof.
  intros [PL PF] Hj H. unfold de_one in H. cbv zeta in H.
  apply bind_Some in H. destruct H as (idx & Hs & H).
  destruct idx as [|i1 [|i2 [|i3 [|]]]]; try discriminate.
  apply bind_Some in H. destruct H as (x1 & E1 & H).
  apply bind_Some in H. destruct H as (x2 & E2 & H).
  apply bind_Some in H. destruct H as (x3 & E3 & H).
  apply bind_Some in H. destruct H as (xt & E4 & H).
  apply bind_Some in H. destruct H as (trial & E5 & H).
  apply bind_Some in H. destruct H as (xt' & E6 & H).
  apply bind_Some in H. destruct H as (v' & E7 & H). inversion H; subst pop' v'. clear H.
  rewrite Forall_forall in PF.
  pose proof (PF _ (nth_error_In _ _ E1)) as F1. pose proof (PF _ (nth_error_In _ _ E2)) as F2.
  pose proof (PF _ (nth_error_In _ _ E3)) as F3. pose proof (PF _ (nth_error_In _ _ E4)) as F4.
  pose proof (donor_inside x1 x2 x3 F1 F2 F3) as DI.
  pose proof (inside_length _ _ DI) as DL. rewrite dim_bounds_length in DL.
  exists i1, i2, i3, x1, x2, x3, xt, trial.
  assert (ND : NoDup [i1; i2; i3]).
  { eapply sample_NoDup; [|exact Hs]. apply NoDup_filter, seq_NoDup. }
  assert (I : forall i, In i [i1; i2; i3] -> i < de_npop p /\ i <> j).
  { intros i Hi. apply in_candidates. eapply sample_incl; eauto. }
  split. { constructor; auto. intros Hi. apply I in Hi. tauto. }
  split; [apply I; simpl; auto|]. split; [apply I; simpl; auto|]. split; [apply I; simpl; auto|].
  do 4 (split; auto). split; [|split; [|split; auto]].
  - intros i d a b c x Hd Ha Hb Hc Hx.
    destruct (recombine_spec (de_CR p) (dd_cr dr) xt (clip_vec (de_bounds p) (map2 (fun a c => a + de_F p * c)%Q x1 (map2 (fun a c => a - c)%Q x2 x3))) 0) as (r & Er & _ & N).
    { rewrite DL. symmetry. apply feasible_length; auto. }
    rewrite Er in E5. inversion E5; subst r.
    rewrite (N i x (clip1 (d_lo d) (d_hi d) (a + de_F p * (b - c))) Hx); [reflexivity|].
    rewrite de_bounds_eq. clear - W Hd Ha Hb Hc F1 F2 F3.
    apply feasible_length in F1, F2, F3.
    set (w := map2 (fun a c => a + de_F p * c)%Q x1 (map2 (fun a c => a - c)%Q x2 x3)).
    assert (Hw : nth_error w i = Some (a + de_F p * (b - c))%Q).
    { unfold w. rewrite nth_error_map2, Ha, nth_error_map2, Hb, Hc. reflexivity. }
    assert (Lw : length w = length (de_dims p)).
    { unfold w. rewrite map2_length; [auto|]. rewrite map2_length; congruence. }
    clearbody w. clear Ha Hb Hc F1 F2 F3. revert w i Hd Hw Lw. induction W as [|d0 ds [W1 W2] W' IH]; intros w i Hd Hw Lw.
    + destruct i; discriminate.
    + destruct w as [|y w]; [discriminate|]. cbn [dim_bounds map]. fold (dim_bounds ds). rewrite clip_vec_cons by auto.
      destruct i as [|i]; cbn [nth_error] in *.
      * inversion Hd; inversion Hw; subst. reflexivity.
      * apply IH; auto.
  - eapply recombine_inside; [exact DI| |exact E5]. apply feasible_inside; auto.
  - eauto.
Qed.

Lemma de_one_ok pop j dr pop' v : pop_ok pop -> j < de_npop p ->
  de_one expf p ngen pop (j, dr) = Some (pop', v) ->
  pop_ok pop' /\ feasible (de_dims p) v /\ Forall2 (Forall2 Qeq) pop' pop.
Proof.
  intros P Hj H. destruct (de_one_spec _ _ _ _ _ P Hj H) as
    (i1 & i2 & i3 & x1 & x2 & x3 & xt & trial & _ & _ & _ & _ & _ & _ & _ & Ext & _ & TI & Ev & xt' & Et & ->).
  destruct P as [PL PF]. rewrite Forall_forall in PF. pose proof (PF _ (nth_error_In _ _ Ext)) as Fx.
  destruct (ensure_keeps expf (1 - inject_Z (Z.of_nat j) * (1 / inject_Z (Z.of_nat ngen))) (de_method p) (dd_vr dr) (dd_vp dr) (de_dims p) trial K W TI) as (v1 & E1 & F1 & _).
  rewrite E1 in Ev. inversion Ev; subst v1.
  destruct (ensure_keeps expf (1 - inject_Z (Z.of_nat j) * (1 / inject_Z (Z.of_nat ngen))) (de_method p) (dd_tr dr) (dd_tp dr) (de_dims p) xt K W (feasible_inside _ _ Fx)) as (t1 & E2 & F2 & Q2).
  rewrite E2 in Et. inversion Et; subst t1.
  split; [split|split; auto].
  - rewrite length_set_nth. auto.
  - apply Forall_set_nth; auto. apply Forall_forall. auto.
  - clear - Q2 Fx Ext. specialize (Q2 Fx). revert j Ext. induction pop as [|a pop IH]; intros [|j] Ext; simpl in *; try discriminate.
    + inversion Ext; subst. constructor; auto. clear. induction pop; constructor; auto. apply Forall2_Qeq_refl.
    + constructor; [apply Forall2_Qeq_refl|]. apply IH; auto.
Qed.

Lemma Forall2_tr {A} (T : A -> A -> Prop) : (forall x y z, T x y -> T y z -> T x z) ->
  forall a b c, Forall2 T a b -> Forall2 T b c -> Forall2 T a c.
Proof.
  intros HT a b c H. revert c. induction H; intros c Hc; inversion Hc; subst; constructor; eauto.
Qed.
Lemma Forall2_trans_Qeq (a b c : list (list Q)) : Forall2 (Forall2 Qeq) a b -> Forall2 (Forall2 Qeq) b c -> Forall2 (Forall2 Qeq) a c.
Proof. apply Forall2_tr, Forall2_tr, Qeq_trans. Qed.

Lemma de_iter_ok pop js pop' vs drs : pop_ok pop -> (forall j, In j js -> j < de_npop p) ->
  iter_steps (de_one expf p ngen) pop (map (fun j => (j, drs j)) js) = Some (pop', vs) ->
  pop_ok pop' /\ Forall (feasible (de_dims p)) vs /\ length vs = length js /\ Forall2 (Forall2 Qeq) pop' pop.
Proof.
  intros P J H.
  assert (L : length vs = length js). { apply iter_steps_length in H. rewrite map_length in H. auto. }
  destruct (iter_steps_inv (de_one expf p ngen) (fun q => pop_ok q /\ Forall2 (Forall2 Qeq) q pop) (feasible (de_dims p)) (map (fun j => (j, drs j)) js)) with (s := pop) (s' := pop') (os := vs) as [[H1 H2] H3]; auto.
  - intros s d s' o Hd [Hp Hq] Hs. apply in_map_iff in Hd. destruct Hd as (j & <- & Hj).
    destruct (de_one_ok _ _ _ _ _ Hp (J _ Hj) Hs) as (O1 & O2 & O3). split; auto. split; auto.
    eapply Forall2_trans_Qeq; eauto.
  - split; auto. clear. induction pop; constructor; auto. apply Forall2_Qeq_refl.
Qed.

(** One generation in closed form. *)
Lemma de_gen_spec drs st st' : pop_ok (ds_pop st) -> de_gen expf m fit p ngen drs st = Some st' ->
  pop_ok (ds_pop st') /\
  exists targets trials x y,
    Forall2 (Forall2 Qeq) targets (ds_pop st) /\ length targets = de_npop p /\ length trials = de_npop p /\
    Forall (feasible (de_dims p)) targets /\ Forall (feasible (de_dims p)) trials /\
    ds_pop st' = map2 (fun t v => if Qltb (g t) (g v) then v else t) targets trials /\
    ds_scores st' = map g (ds_pop st') /\
    ds_best st' = Some (x, y) /\ max_of g (ds_pop st') x y /\
    ds_hist st' = ds_hist st ++ [y] /\ ds_seen st' = ds_seen st ++ trials ++ targets.
Proof.
  intros P H. unfold de_gen in H. apply bind_Some in H. destruct H as ([targets trials] & Hi & H).
  apply de_iter_ok in Hi; auto; [|intros j Hj; apply in_seq in Hj; lia].
  destruct Hi as ([TL TF] & VF & VL & TQ). rewrite seq_length in VL. cbv zeta in H.
  assert (ES : map2 (fun t v => if Qltb (de_score m fit p t) (de_score m fit p v) then v else t) targets trials =
               map2 (fun t v => if Qltb (g t) (g v) then v else t) targets trials /\
               map2 (fun t v => if Qltb (de_score m fit p t) (de_score m fit p v) then de_score m fit p v else de_score m fit p t) targets trials =
               map g (map2 (fun t v => if Qltb (g t) (g v) then v else t) targets trials) /\
               Forall (feasible (de_dims p)) (map2 (fun t v => if Qltb (g t) (g v) then v else t) targets trials)).
  { clear - W TF VF TL VL. assert (L : length targets = length trials) by congruence. clear TL VL.
    revert trials VF L. induction TF as [|t targets Ft TF IH]; intros [|v trials] VF L; try discriminate; simpl; auto.
    inversion VF as [|? ? Fv VF']; subst. rewrite !score_g by auto.
    destruct (IH trials VF' ltac:(simpl in L; lia)) as (I1 & I2 & I3).
    rewrite I1, I2. repeat split; auto.
    - f_equal. destruct (Qltb _ _); auto.
    - constructor; auto. destruct (Qltb _ _); auto. }
  destruct ES as (E1 & E2 & E3). rewrite E1, E2 in H.
  apply bind_Some in H. destruct H as ([k y] & Ha & H).
  apply bind_Some in H. destruct H as (x & Hx & H). inversion H; subst st'. clear H. cbn [ds_pop ds_scores ds_best ds_hist ds_seen].
  split.
  - split; auto. rewrite map2_length; congruence.
  - apply max_of_argmax in Ha. destruct Ha as (x' & Hx' & Hm). rewrite Hx in Hx'. inversion Hx'; subst x'.
    exists targets, trials, x, y. do 8 (split; [auto|]). split; [exact Hm|]. split; auto. f_equal. f_equal.
    + clear - W VF. induction VF; simpl; auto. rewrite arg_id; congruence.
    + clear - W TF. induction TF; simpl; auto. rewrite arg_id; congruence.
Qed.

Lemma g_resp x y : Forall2 Qeq x y -> (g x == g y)%Q.
Proof. intros H. unfold g. rewrite (R _ _ H). reflexivity. Qed.

Lemma de_slot_greedy drs st st' i x x' : pop_ok (ds_pop st) -> de_gen expf m fit p ngen drs st = Some st' ->
  nth_error (ds_pop st) i = Some x -> nth_error (ds_pop st') i = Some x' -> as_good m (fit x') (fit x).
Proof.
  intros P H Hx Hx'. destruct (de_gen_spec _ _ _ P H) as (_ & T & V & _ & _ & TQ & _ & _ & _ & _ & E & _).
  rewrite E, nth_error_map2 in Hx'. destruct (nth_error T i) as [t|] eqn:Et; [|discriminate].
  destruct (nth_error V i) as [v|]; [|discriminate]. inversion Hx'; subst x'. clear Hx'.
  assert (Q : (g t == g x)%Q).
  { apply g_resp. clear - TQ Hx Et. revert i Hx Et. induction TQ; intros [|i] Hx Et; simpl in *; try discriminate; [congruence|eauto]. }
  apply as_max_good. fold (g x). destruct (Qltb (g t) (g v)) eqn:C; qprop; [fold (g v)|fold (g t)]; lra.
Qed.

(** Loop invariant. *)
Definition de_inv (init : list (list Q)) (st : de_state) : Prop :=
  pop_ok (ds_pop st) /\ Forall (feasible (de_dims p)) (ds_seen st) /\
  (forall z, In z (ds_seen st ++ init) -> exists x, In x (ds_pop st) /\ (g z <= g x)%Q) /\
  ds_scores st = (match ds_best st with None => [] | _ => map g (ds_pop st) end) /\
  match ds_best st with
  | None => ds_hist st = []
  | Some (x, y) => max_of g (ds_seen st) x y /\ max_of g (ds_pop st) x y /\
                   (forall z, In z init -> (g z <= y)%Q) /\ (exists h, ds_hist st = h ++ [y]) /\
                   StronglySorted Qle (ds_hist st)
  end.

(** The part of it that one generation needs. *)
Definition de_pre (init : list (list Q)) (st : de_state) : Prop :=
  pop_ok (ds_pop st) /\ Forall (feasible (de_dims p)) (ds_seen st) /\
  (forall z, In z (ds_seen st ++ init) -> exists x, In x (ds_pop st) /\ (g z <= g x)%Q) /\
  match ds_best st with
  | None => ds_hist st = []
  | Some (x, y) => max_of g (ds_seen st) x y /\ (exists h, ds_hist st = h ++ [y]) /\ StronglySorted Qle (ds_hist st)
  end.
Lemma de_inv_pre init st : de_inv init st -> de_pre init st.
Proof.
  intros (P & SF & D & _ & B). do 3 (split; [auto|]). destruct (ds_best st) as [[x y]|]; auto.
  destruct B as (B1 & _ & _ & B4 & B5). auto.
Qed.

Lemma StronglySorted_snoc l y : StronglySorted Qle l -> (forall x, In x l -> (x <= y)%Q) -> StronglySorted Qle (l ++ [y]).
Proof.
  intros H. induction H as [|a l H IH F]; simpl; intros B; [repeat constructor|].
  constructor; [apply IH; auto|]. apply Forall_app. split; auto.
Qed.
Lemma StronglySorted_last l y : StronglySorted Qle (l ++ [y]) -> forall x, In x (l ++ [y]) -> (x <= y)%Q.
Proof.
  induction l as [|a l IH]; simpl; intros H x Hx.
  - destruct Hx as [->|[]]. apply Qle_refl.
  - inversion H as [|? ? H1 H2]; subst. destruct Hx as [->|Hx]; [|auto].
    rewrite Forall_forall in H2. apply H2. apply in_app_iff. simpl. auto.
Qed.

Lemma de_gen_pre init drs st st' : de_pre init st -> de_gen expf m fit p ngen drs st = Some st' ->
  de_inv init st' /\ length (ds_hist st') = S (length (ds_hist st)) /\ ds_best st' <> None.
Proof.
  intros (P & SF & D & B) H.
  destruct (de_gen_spec _ _ _ P H) as (P' & T & V & x & y & TQ & TL & VL & TF & VF & EP & ESc & EB & M & EH & ES).
  assert (DOM : forall z, In z (ds_seen st' ++ init) -> exists w, In w (ds_pop st') /\ (g z <= g w)%Q).
  { assert (SL : forall i t v, nth_error T i = Some t -> nth_error V i = Some v ->
              exists w, In w (ds_pop st') /\ (g t <= g w)%Q /\ (g v <= g w)%Q).
    { intros i t v Ht Hv. exists (if Qltb (g t) (g v) then v else t). split.
      - rewrite EP. eapply nth_error_In with (n := i). rewrite nth_error_map2, Ht, Hv. reflexivity.
      - destruct (Qltb (g t) (g v)) eqn:C; qprop; lra. }
    assert (TD : forall t, In t T -> exists w, In w (ds_pop st') /\ (g t <= g w)%Q).
    { intros t Ht. apply In_nth_error in Ht. destruct Ht as [i Hi].
      destruct (nth_error V i) as [v|] eqn:Hv.
      - destruct (SL i t v Hi Hv) as (w & ? & ? & ?); eauto.
      - apply nth_error_None in Hv. assert (i < length T) by (apply nth_error_Some; congruence). lia. }
    assert (VD : forall v, In v V -> exists w, In w (ds_pop st') /\ (g v <= g w)%Q).
    { intros v Hv. apply In_nth_error in Hv. destruct Hv as [i Hi].
      destruct (nth_error T i) as [t|] eqn:Ht.
      - destruct (SL i t v Ht Hi) as (w & ? & ? & ?); eauto.
      - apply nth_error_None in Ht. assert (i < length V) by (apply nth_error_Some; congruence). lia. }
    assert (PD : forall q, In q (ds_pop st) -> exists w, In w (ds_pop st') /\ (g q <= g w)%Q).
    { intros q Hq. apply In_nth_error in Hq. destruct Hq as [i Hi].
      assert (exists t, nth_error T i = Some t /\ Forall2 Qeq t q) as (t & Ht & Hq).
      { clear - TQ Hi. revert i Hi. induction TQ; intros [|i] Hi; simpl in *; try discriminate; eauto.
        inversion Hi; subst. eauto. }
      destruct (TD t (nth_error_In _ _ Ht)) as (w & ? & ?). exists w. split; auto. rewrite <- (g_resp _ _ Hq). auto. }
    intros z Hz. rewrite ES in Hz. rewrite !in_app_iff in Hz.
    assert (OLD : In z (ds_seen st ++ init) -> exists w, In w (ds_pop st') /\ (g z <= g w)%Q).
    { intros Ho. destruct (D z Ho) as (q & Hq & Lq). destruct (PD q Hq) as (w & Hw & Lw). exists w. split; auto. lra. }
    destruct Hz as [[Hz|[Hz|Hz]]|Hz]; auto; apply OLD; apply in_app_iff; auto. }
  assert (LE : forall z, In z (ds_seen st' ++ init) -> (g z <= y)%Q).
  { intros z Hz. destruct (DOM z Hz) as (w & Hw & Lw). destruct M as (_ & _ & M). pose proof (M w Hw). lra. }
  assert (PS : forall w, In w (ds_pop st') -> In w (ds_seen st')).
  { intros w Hw. rewrite EP in Hw. apply In_nth_error in Hw. destruct Hw as [i Hi].
    rewrite nth_error_map2 in Hi. destruct (nth_error T i) as [t|] eqn:Et; [|discriminate].
    destruct (nth_error V i) as [v|] eqn:Ev; [|discriminate]. inversion Hi; subst w.
    rewrite ES, !in_app_iff. destruct (Qltb _ _); [right; left|right; right]; eapply nth_error_In; eauto. }
  split; [|split].
  - split; auto. split; [rewrite ES; apply Forall_app; split; auto; apply Forall_app; auto|]. split; auto.
    rewrite EB. split; auto. split; [|split; [auto|split; [|split]]].
    + destruct M as (M1 & M2 & _). split; auto. split; auto. intros z Hz. apply LE. apply in_app_iff; auto.
    + intros z Hz. apply LE. apply in_app_iff; auto.
    + rewrite EH. eauto.
    + rewrite EH. destruct (ds_best st) as [[x0 y0]|].
      * destruct B as (B1 & (h & B4) & B5). apply StronglySorted_snoc; auto.
        intros q Hq. rewrite B4 in B5, Hq. pose proof (StronglySorted_last _ _ B5 q Hq).
        destruct B1 as (C1 & C2 & _). assert (g x0 <= y)%Q by (apply LE; rewrite ES, !in_app_iff; auto). lra.
      * rewrite B. repeat constructor.
  - rewrite EH, app_length. simpl. lia.
  - congruence.
Qed.

Lemma de_gen_inv init drs st st' : de_inv init st -> de_gen expf m fit p ngen drs st = Some st' ->
  de_inv init st' /\ length (ds_hist st') = S (length (ds_hist st)) /\ ds_best st' <> None.
Proof. intros I. apply de_gen_pre. apply de_inv_pre; auto. Qed.

Lemma de_gens_inv init drs todo : forall gi st st', de_inv init st ->
  de_gens expf m fit p ngen drs gi todo st = Some st' ->
  de_inv init st' /\ length (ds_hist st') = todo + length (ds_hist st) /\ (todo <> 0 -> ds_best st' <> None).
Proof.
  induction todo as [|t IH]; intros gi st st' I H; cbn [de_gens] in H.
  - inversion H; subst. split; [auto|]. split; [reflexivity|]. congruence.
  - apply bind_Some in H. destruct H as (st1 & E & H). apply (de_gen_inv init) in E; auto. destruct E as (E1 & E2 & E3).
    destruct (IH _ _ _ E1 H) as (J1 & J2 & J3). split; auto. split; [lia|].
    intros _. destruct t; [|apply J3; lia]. simpl in H. inversion H; subst. auto.
Qed.

Lemma sorted_nth l i j a b : StronglySorted Qle l -> i <= j -> nth_error l i = Some a -> nth_error l j = Some b -> (a <= b)%Q.
Proof.
  intros H. revert i j. induction H as [|x l H IH F]; intros i j L Ha Hb; [destruct i; discriminate|].
  destruct i as [|i], j as [|j]; cbn [nth_error] in *; try lia.
  - assert (E : a = b) by congruence. subst. apply Qle_refl.
  - inversion Ha; subst. rewrite Forall_forall in F. apply F. eapply nth_error_In; eauto.
  - eapply IH; [|eauto|eauto]. lia.
Qed.
Lemma sorted_never_worse l : StronglySorted Qle l -> never_worse m (map (as_max m) l).
Proof.
  intros H i j a b L Ha Hb. rewrite nth_error_map in Ha, Hb.
  destruct (nth_error l i) as [u|] eqn:Eu; [|discriminate]. destruct (nth_error l j) as [w|] eqn:Ew; [|discriminate].
  simpl in Ha, Hb. inversion Ha; inversion Hb; subst. apply as_max_good. rewrite !as_max_invol.
  eapply sorted_nth; eauto.
Qed.

Lemma de_evolute_best drs init r : pop_ok init -> de_evolute expf m fit p ngen drs init = Some r ->
  best_of m fit (dr_seen r) (dr_x r) (dr_y r) /\
  (forall z, In z init -> as_good m (dr_y r) (fit z)) /\
  Forall (feasible (de_dims p)) (dr_seen r) /\
  length (dr_local r) = ngen /\ never_worse m (dr_local r) /\ last (dr_local r) 0%Q = dr_y r /\
  dr_fits r = map (fun x => as_max m (as_max m (fit x))) (dr_pop r).
Proof.
  intros P H. unfold de_evolute in H. apply bind_Some in H. destruct H as (st & E & H).
  apply (de_gens_inv init) in E.
  - destruct E as ((P' & SF & D & Sc & B) & L & _). apply bind_Some in H. destruct H as ([x y] & EB & H).
    rewrite EB in B, Sc. destruct B as (B1 & B2 & B3 & (h & B4) & B5). inversion H; subst r. clear H.
    cbn [dr_seen dr_x dr_y dr_local dr_fits dr_pop]. cbn [ds_hist] in L.
    split; [apply max_of_best; auto|]. split.
    { intros z Hz. apply as_max_good. rewrite as_max_invol. apply B3; auto. }
    split; auto. split; [rewrite map_length; simpl in L; lia|]. split; [apply sorted_never_worse; auto|].
    split.
    + rewrite B4, map_app. simpl. rewrite last_last. reflexivity.
    + rewrite Sc, map_map. reflexivity.
  - split; auto. cbn [ds_pop ds_seen ds_best ds_hist ds_scores]. split; [constructor|]. split; auto.
    intros z Hz. exists z. split; auto. apply Qle_refl.
Qed.

Lemma de_one_total pop j dr : 4 <= de_npop p -> pop_ok pop -> j < de_npop p ->
  exists pop' v, de_one expf p ngen pop (j, dr) = Some (pop', v).
Proof.
  intros N P Hj. destruct P as [PL PF]. unfold de_one. cbv zeta.
  destruct (sample_total [dd_1 dr; dd_2 dr; dd_3 dr] (filter (fun i => negb (i =? j)) (seq 0 (de_npop p)))) as (idx & Hs).
  { rewrite candidates_length by auto. simpl. lia. }
  rewrite Hs. cbn [bind]. destruct (sample_perm _ _ _ Hs) as [L _].
  destruct idx as [|i1 [|i2 [|i3 [|]]]]; try (simpl in L; lia).
  assert (I : forall i, In i [i1; i2; i3] -> exists x, nth_error pop i = Some x /\ feasible (de_dims p) x).
  { intros i Hi. pose proof (sample_incl _ _ _ Hs i Hi) as Hc. apply in_candidates in Hc.
    destruct (nth_error pop i) as [x|] eqn:E; [|apply nth_error_None in E; lia].
    exists x. split; auto. rewrite Forall_forall in PF. apply PF. eapply nth_error_In; eauto. }
  destruct (I i1 ltac:(simpl; auto)) as (x1 & E1 & F1). destruct (I i2 ltac:(simpl; auto)) as (x2 & E2 & F2).
  destruct (I i3 ltac:(simpl; auto)) as (x3 & E3 & F3). rewrite E1, E2, E3. cbn [bind].
  destruct (nth_error pop j) as [xt|] eqn:E4; [|apply nth_error_None in E4; lia]. cbn [bind].
  assert (F4 : feasible (de_dims p) xt) by (rewrite Forall_forall in PF; apply PF; eapply nth_error_In; eauto).
  pose proof (donor_inside x1 x2 x3 F1 F2 F3) as DI.
  set (donor := clip_vec _ _) in *.
  destruct (recombine_spec (de_CR p) (dd_cr dr) xt donor 0) as (trial & E5 & _).
  { rewrite (inside_length _ _ DI), dim_bounds_length. symmetry. apply feasible_length; auto. }
  rewrite E5. cbn [bind].
  pose proof (recombine_inside _ _ _ _ _ _ _ DI (feasible_inside _ _ F4) E5) as TI.
  destruct (ensure_keeps expf (1 - inject_Z (Z.of_nat j) * (1 / inject_Z (Z.of_nat ngen))) (de_method p) (dd_tr dr) (dd_tp dr) (de_dims p) xt K W (feasible_inside _ _ F4)) as (t1 & -> & _ & _).
  destruct (ensure_keeps expf (1 - inject_Z (Z.of_nat j) * (1 / inject_Z (Z.of_nat ngen))) (de_method p) (dd_vr dr) (dd_vp dr) (de_dims p) trial K W TI) as (v1 & -> & _ & _).
  cbn [bind]. eauto.
Qed.

Lemma de_gen_total drs st : 4 <= de_npop p -> pop_ok (ds_pop st) -> exists st', de_gen expf m fit p ngen drs st = Some st'.
Proof.
  intros N P. unfold de_gen.
  destruct (iter_steps_total (de_one expf p ngen) pop_ok (map (fun j => (j, drs j)) (seq 0 (de_npop p)))) with (s := ds_pop st) as (T & V & E); auto.
  - intros s d Hd Hs. apply in_map_iff in Hd. destruct Hd as (j & <- & Hj). apply in_seq in Hj.
    destruct (de_one_total s j (drs j) N Hs ltac:(lia)) as (s' & v & E). exists s', v. split; auto.
    apply (de_one_ok s j (drs j) s' v Hs ltac:(lia) E).
  - rewrite E. cbn [bind]. cbv zeta. apply de_iter_ok in E; auto; [|intros j Hj; apply in_seq in Hj; lia].
    destruct E as ([TL _] & _ & VL & _). rewrite seq_length in VL.
    match goal with |- context [argmax ?l] => destruct (argmax_Some l) as (k & y & Ha) end.
    { intros E. apply (f_equal (@length Q)) in E. rewrite map2_length in E by congruence. simpl in E. lia. }
    rewrite Ha. cbn [bind]. apply argmax_spec in Ha. destruct Ha as [Ha _]. rewrite nth_error_map2 in Ha.
    rewrite nth_error_map2. destruct (nth_error T k); [|discriminate]. destruct (nth_error V k); [|discriminate]. cbn [bind]. eauto.
Qed.

Lemma de_evolute_total drs init : 4 <= de_npop p -> 1 <= ngen -> pop_ok init -> exists r, de_evolute expf m fit p ngen drs init = Some r.
Proof.
  intros N G P. unfold de_evolute.
  assert (I0 : de_inv init (DeSt init None [] [] [])).
  { split; auto. cbn [ds_pop ds_seen ds_best ds_hist ds_scores]. split; [constructor|]. split; auto.
    intros z Hz. exists z. split; auto. apply Qle_refl. }
  assert (T : forall todo gi st, de_inv init st -> exists st', de_gens expf m fit p ngen drs gi todo st = Some st').
  { induction todo as [|t IH]; intros gi st I; cbn [de_gens]; eauto.
    destruct (de_gen_total (drs gi) st N (proj1 I)) as (st1 & E). rewrite E. cbn [bind]. apply IH. eapply de_gen_inv; eauto. }
  destruct (T ngen 0 _ I0) as (st & E). rewrite E. cbn [bind].
  apply (de_gens_inv init) in E; auto. destruct E as (_ & _ & E).
  destruct (ds_best st) as [[x y]|]; [cbn [bind]; eauto|]. exfalso. apply E; [lia|reflexivity].
Qed.
End DE.

(* ---------- witness: other integer transformations lose the best individual ---------- *)
Definition de_wit_par : de_par := DePar [Dim true 0 3] 5 (1#2) (3#10) Sigmoid.
Definition de_wit_draw : de_draw :=
  DeDraw 0 1 2 (fun _ => 1%Q) (fun _ => 0%Q) (fun _ => 0) (fun _ => 0%Q) (fun _ => 0).
Definition de_wit_fit (x : list Q) : Q := nth 0 x 0%Q.
Lemma de_sigmoid_loses expf : exists p drs init ngen r z,
  wf_dims (de_dims p) /\ de_method p = Sigmoid /\ 4 < de_npop p /\ 1 <= ngen /\
  length init = de_npop p /\ Forall (feasible (de_dims p)) init /\ respects de_wit_fit /\
  de_evolute expf Mmax de_wit_fit p ngen drs init = Some r /\ In z init /\ (dr_y r < de_wit_fit z)%Q.
Proof.
  exists de_wit_par, (fun _ _ => de_wit_draw), [[3];[3];[3];[3];[3]]%Q, 1.
  eexists. exists [3]%Q. repeat match goal with |- _ /\ _ => split end.
  - repeat constructor; simpl; try (unfold Qle; simpl; lia); intros; eexists; reflexivity.
  - reflexivity.
  - simpl. lia.
  - lia.
  - reflexivity.
  - repeat constructor; simpl; try (unfold Qle; simpl; lia); intros; exists 3%Z; reflexivity.
  - intros x y H. inversion H; subst; simpl; [reflexivity|auto].
  - vm_compute. reflexivity.
  - simpl. auto.
  - reflexivity.
Qed.

(* ---------- a concrete run ---------- *)
Definition de_demo_par : de_par := DePar [Dim true 0 3; Dim false (-1) 1] 5 (1#2) (3#10) NearestInt.
Definition de_demo_init : list (list Q) := [[3; 1]; [0; -1]; [1; 1#2]; [2; 0]; [3; -1]]%Q.
Definition de_demo_fit (x : list Q) : Q := (nth 0 x 0 + nth 1 x 0)%Q.
Lemma de_demo_ok : wf_dims (de_dims de_demo_par) /\ keeps_ints (de_method de_demo_par) (de_dims de_demo_par) /\
  respects de_demo_fit /\ length de_demo_init = de_npop de_demo_par /\ Forall (feasible (de_dims de_demo_par)) de_demo_init.
Proof.
  split; [|split; [|split; [|split]]].
  - repeat constructor; simpl; try (unfold Qle; simpl; lia); try discriminate; intros; eexists; reflexivity.
  - left. reflexivity.
  - intros x y H. unfold de_demo_fit. inversion H as [|a b x' y' E H1]; subst; [reflexivity|].
    inversion H1 as [|a' b' x'' y'' E' H2]; subst; simpl; rewrite E; [reflexivity|]. rewrite E'. reflexivity.
  - reflexivity.
  - repeat constructor; simpl; try (unfold Qle; simpl; lia); try discriminate; intros; eexists; reflexivity.
Qed.
Lemma de_demo_runs expf drs : exists r, de_evolute expf Mmax de_demo_fit de_demo_par 7 drs de_demo_init = Some r /\ (4 <= dr_y r)%Q.
Proof.
  destruct de_demo_ok as (W & K & R & L & F).
  destruct (de_evolute_total expf Mmax de_demo_fit de_demo_par 7 W K R drs de_demo_init) as (r & E); [simpl; lia|lia|split; auto|].
  exists r. split; auto. apply (de_evolute_best expf Mmax de_demo_fit de_demo_par 7 W K R) in E; [|split; auto].
  destruct E as (_ & G & _). apply (G [3;1]%Q). simpl. auto.
Qed.
