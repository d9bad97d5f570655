(** Proofs about evolution strategies. *)
From Coq Require Import List Arith ZArith QArith Qround Bool Lia Lqa Permutation Sorted.
From Verif Require Import Base BaseFacts Space_Model Space_Spec Space_Facts Opt_Model Opt_Spec Opt_Facts Opt_Facts2 ES_Model ES_Spec.
Import ListNotations.
Open Scope nat_scope.

(* ---------- two-point crossover ---------- *)
Lemma splice_length {A} p q (a b : list A) : p <= q -> q <= length a -> length a = length b ->
  length (splice p q a b) = length a.
Proof.
  intros. unfold splice. rewrite !app_length, !firstn_length, !skipn_length. lia.
Qed.
Lemma nth_error_skipn {A} (l : list A) : forall n i, nth_error (skipn n l) i = nth_error l (n + i).
Proof. induction l; intros [|n] i; simpl; auto. destruct i; auto. Qed.
Lemma nth_error_firstn {A} (l : list A) : forall n i, nth_error (firstn n l) i = if i <? n then nth_error l i else None.
Proof.
  induction l; intros [|n] [|i]; simpl; auto; try (destruct (_ <? _); reflexivity).
  rewrite IHl. reflexivity.
Qed.
Lemma splice_nth {A} p q (a b : list A) i : p <= q -> q <= length a -> length a = length b ->
  nth_error (splice p q a b) i = if (p <=? i) && (i <? q) then nth_error b i else nth_error a i.
Proof.
  intros Hp Hq Hl. unfold splice.
  destruct (Nat.leb_spec p i); cbn [andb].
  - rewrite nth_error_app2 by (rewrite firstn_length; lia). rewrite firstn_length, Nat.min_l by lia.
    destruct (Nat.ltb_spec i q).
    + rewrite nth_error_app1 by (rewrite firstn_length, skipn_length; lia).
      rewrite nth_error_firstn, nth_error_skipn. destruct (Nat.ltb_spec (i - p) (q - p)); [|lia].
      f_equal. lia.
    + rewrite nth_error_app2 by (rewrite firstn_length, skipn_length; lia).
      rewrite firstn_length, skipn_length, nth_error_skipn. f_equal. lia.
  - rewrite nth_error_app1 by (rewrite firstn_length; lia). rewrite nth_error_firstn.
    destruct (Nat.ltb_spec i p); [reflexivity|lia].
Qed.
Lemma splice_exchanged {A} p q (a b : list A) : p <= q -> q <= length a -> length a = length b ->
  exchanged p q a b (splice p q a b) (splice p q b a).
Proof.
  intros. split; [apply splice_length; auto|]. split; [apply splice_length; auto; lia|].
  intros i. rewrite !splice_nth by (auto; lia).
  destruct (Nat.leb_spec p i), (Nat.ltb_spec i q); cbn [andb]; split; intros; auto; lia.
Qed.

Lemma two_point {A B} r1 r2 (i1 i2 : list A) (s1 s2 : list B) n : 2 <= n ->
  length i1 = n -> length i2 = n -> length s1 = n -> length s2 = n ->
  exists p q c1 c2 t1 t2, cxES2point r1 r2 i1 i2 s1 s2 = Some (c1, c2, t1, t2) /\
    1 <= p /\ p < q /\ q <= n /\ exchanged p q i1 i2 c1 c2 /\ exchanged p q s1 s2 t1 t2.
Proof.
  intros Hn L1 L2 L3 L4. unfold cxES2point. rewrite L1, L2, Nat.min_id.
  destruct (Nat.ltb_spec n 2); [lia|].
  pose proof (Nat.mod_upper_bound r1 n ltac:(lia)). pose proof (Nat.mod_upper_bound r2 (n - 1) ltac:(lia)).
  destruct (Nat.leb_spec (1 + r1 mod n) (1 + r2 mod (n - 1))).
  - do 6 eexists. split; [reflexivity|]. split; [|split; [|split; [|split; apply splice_exchanged]]]; lia.
  - do 6 eexists. split; [reflexivity|]. split; [|split; [|split; [|split; apply splice_exchanged]]]; lia.
Qed.

Lemma two_point_reach {A B} (i1 i2 : list A) (s1 s2 : list B) n p q : 1 <= p -> p < q -> q <= n ->
  length i1 = n -> length i2 = n -> length s1 = n -> length s2 = n ->
  exists r1 r2 c1 c2 t1 t2, cxES2point r1 r2 i1 i2 s1 s2 = Some (c1, c2, t1, t2) /\
    exchanged p q i1 i2 c1 c2 /\ exchanged p q s1 s2 t1 t2.
Proof.
  intros Hp Hpq Hq L1 L2 L3 L4. exists (p - 1), (q - 2). unfold cxES2point. rewrite L1, L2, Nat.min_id.
  destruct (Nat.ltb_spec n 2); [lia|].
  rewrite !Nat.mod_small by lia.
  destruct (Nat.leb_spec (1 + (p - 1)) (1 + (q - 2))); [|lia].
  replace (1 + (p - 1)) with p by lia. replace (1 + (q - 2) + 1) with q by lia.
  do 4 eexists. split; [reflexivity|]. split; apply splice_exchanged; lia.
Qed.

Lemma two_point_short {A B} r1 r2 (i1 i2 : list A) (s1 s2 : list B) : length i1 < 2 ->
  cxES2point r1 r2 i1 i2 s1 s2 = None.
Proof. intros H. unfold cxES2point. destruct (Nat.ltb_spec (Nat.min (length i1) (length i2)) 2); [auto|lia]. Qed.

(* ---------- blend crossover ---------- *)
Lemma blend_vec_spec alpha u : forall a b j c d, length a = length b -> blend_vec alpha u j a b = (c, d) ->
  length c = length a /\ length d = length a /\
  forall i x y, nth_error a i = Some x -> nth_error b i = Some y ->
    exists v w, nth_error c i = Some v /\ nth_error d i = Some w /\
      v = fst (blend alpha (u (j + i)) x y) /\ w = snd (blend alpha (u (j + i)) x y).
Proof.
  induction a as [|x a IH]; intros [|y b] j c d L H; simpl in L; try lia; cbn [blend_vec] in H.
  - inversion H; subst. repeat split; auto. intros [|i]; discriminate.
  - destruct (blend alpha (u j) x y) as [v w] eqn:E.
    destruct (blend_vec alpha u (S j) a b) as [cs ds] eqn:E2. inversion H; subst.
    destruct (IH b (S j) cs ds ltac:(lia) E2) as (L1 & L2 & N).
    cbn [length]. repeat split; try lia. intros [|i] x' y' Hx Hy; cbn [nth_error] in *.
    + inversion Hx; inversion Hy; subst. exists v, w. rewrite Nat.add_0_r, E. auto.
    + destruct (N i x' y' Hx Hy) as (v' & w' & N1 & N2 & N3 & N4). exists v', w'.
      replace (j + S i) with (S j + i) by lia. auto.
Qed.


Lemma blend_range alpha u x y : (0 <= alpha)%Q -> (0 <= u)%Q -> (u <= 1)%Q ->
  forall z, z = fst (blend alpha u x y) \/ z = snd (blend alpha u x y) ->
  (qlo x y - alpha * (qhi x y - qlo x y) <= z)%Q /\ (z <= qhi x y + alpha * (qhi x y - qlo x y))%Q.
Proof.
  intros Ha H0 H1 z Hz. unfold blend in Hz. cbv zeta in Hz. simpl in Hz.
  set (g := ((1 + 2 * alpha) * u - alpha)%Q) in *.
  assert (G1 : (- alpha <= g)%Q) by (unfold g; nra).
  assert (G2 : (g <= 1 + alpha)%Q) by (unfold g; nra).
  clearbody g. unfold qlo, qhi. destruct (Qle_bool x y) eqn:E; qprop;
  destruct Hz as [-> | ->]; split; nra.
Qed.
Lemma blend_sum alpha u x y : (fst (blend alpha u x y) + snd (blend alpha u x y) == x + y)%Q.
Proof. unfold blend. simpl. ring. Qed.

Lemma blend_ok alpha u w i1 i2 s1 s2 c1 c2 t1 t2 :
  length i1 = length i2 -> length s1 = length s2 ->
  cxESBlend alpha u w i1 i2 s1 s2 = (c1, c2, t1, t2) ->
  length c1 = length i1 /\ length c2 = length i1 /\ length t1 = length s1 /\ length t2 = length s1 /\
  (forall i x y, nth_error i1 i = Some x -> nth_error i2 i = Some y ->
     exists v z, nth_error c1 i = Some v /\ nth_error c2 i = Some z /\ (v + z == x + y)%Q /\
       ((0 <= alpha)%Q -> (0 <= u i)%Q -> (u i <= 1)%Q -> forall r, r = v \/ r = z ->
          (qlo x y - alpha * (qhi x y - qlo x y) <= r)%Q /\ (r <= qhi x y + alpha * (qhi x y - qlo x y))%Q)) /\
  (forall i x y, nth_error s1 i = Some x -> nth_error s2 i = Some y ->
     exists v z, nth_error t1 i = Some v /\ nth_error t2 i = Some z /\ (v + z == x + y)%Q /\
       ((0 <= alpha)%Q -> (0 <= w i)%Q -> (w i <= 1)%Q -> forall r, r = v \/ r = z ->
          (qlo x y - alpha * (qhi x y - qlo x y) <= r)%Q /\ (r <= qhi x y + alpha * (qhi x y - qlo x y))%Q)).
Proof.
  intros L1 L2 H. unfold cxESBlend in H.
  destruct (blend_vec alpha u 0 i1 i2) as [a b] eqn:E1. destruct (blend_vec alpha w 0 s1 s2) as [c d] eqn:E2.
  inversion H; subst. destruct (blend_vec_spec _ _ _ _ _ _ _ L1 E1) as (A1 & A2 & A3).
  destruct (blend_vec_spec _ _ _ _ _ _ _ L2 E2) as (B1 & B2 & B3).
  do 4 (split; [lia|]). split.
  - intros i x y Hx Hy. destruct (A3 i x y Hx Hy) as (v & z & V1 & V2 & V3 & V4). simpl in V3, V4.
    exists v, z. split; auto. split; auto. split; [rewrite V3, V4; apply blend_sum|].
    intros Ha U0 U1 r Hr. apply (blend_range alpha (u i)); auto. rewrite V3, V4 in Hr. auto.
  - intros i x y Hx Hy. destruct (B3 i x y Hx Hy) as (v & z & V1 & V2 & V3 & V4). simpl in V3, V4.
    exists v, z. split; auto. split; auto. split; [rewrite V3, V4; apply blend_sum|].
    intros Ha U0 U1 r Hr. apply (blend_range alpha (w i)); auto. rewrite V3, V4 in Hr. auto.
Qed.

(* ---------- mutation ---------- *)
Lemma np_clip_ok lo hi x : (lo <= hi)%Q -> (lo <= np_clip lo hi x)%Q /\ (np_clip lo hi x <= hi)%Q.
Proof.
  intros. unfold np_clip, qmin2, qmax2.
  destruct (Qle_bool lo x) eqn:E; [destruct (Qle_bool x hi) eqn:E2|destruct (Qle_bool lo hi) eqn:E2]; qprop; lra.
Qed.
Lemma np_clip_strat lo hi s : (lo <= hi)%Q -> strat_ok lo hi (map (np_clip lo hi) s).
Proof. intros. apply Forall_forall. intros v Hv. apply in_map_iff in Hv. destruct Hv as (x & <- & _). apply np_clip_ok; auto. Qed.

Lemma reflect_ok smin smax s : (smin < smax)%Q -> (smin <= reflect smin smax s)%Q /\ (reflect smin smax s <= smax)%Q.
Proof.
  intros H. unfold reflect. cbv zeta. set (y := ((s - smin) / (smax - smin))%Q).
  set (y' := if Z.even (Qfloor y) then qabs (y - inject_Z (Qfloor y)) else (1 - qabs (y - inject_Z (Qfloor y)))%Q).
  assert (0 <= y' /\ y' <= 1)%Q.
  { pose proof (Qfloor_le y). pose proof (Qlt_floor y) as L. rewrite inject_Z_plus in L. change (inject_Z 1) with 1%Q in L.
    assert (0 <= qabs (y - inject_Z (Qfloor y)) /\ qabs (y - inject_Z (Qfloor y)) <= 1)%Q.
    { unfold qabs. destruct (Qle_bool 0 _) eqn:E; qprop; lra. }
    unfold y'. destruct (Z.even _); lra. }
  clearbody y'. nra.
Qed.

Lemma dims_bounds_eq ds : dims_bounds ds = dim_bounds ds.
Proof. reflexivity. Qed.
Lemma es_discrete_feasible ds v : wf_dims ds -> length v = length ds -> feasible ds (es_ensure_discrete ds v).
Proof. intros W L. unfold es_ensure_discrete. apply trunc_feasible; auto. apply clip_inside; auto. Qed.

Section Mut.
Context (expf : Q -> Q) (tau tau' : nat -> Q).

Lemma mut_coord_int smin smax n dr i d x s y t : (smin < smax)%Q ->
  mut_coord expf tau tau' smin smax n dr i d x s = Some (y, t) ->
  d_int d = true -> is_int y /\ (smin <= t)%Q /\ (t <= smax)%Q.
Proof.
  intros Hs H E. unfold mut_coord in H. rewrite E in H.
  destruct (_ || _); [discriminate|]. cbv zeta in H. destruct (Qeq_bool _ 0); [discriminate|].
  match type of H with context [reflect smin smax ?q] => pose proof (reflect_ok smin smax q Hs) as R; set (s2 := reflect smin smax q) in * end.
  clearbody s2. destruct (Qltb _ _).
  - destruct (_ =? _)%Z; [inversion H; subst; split; auto; eexists; reflexivity|].
    destruct (zremove _ _); [|discriminate]. destruct (choice _ _); [|discriminate].
    inversion H; subst. split; auto. eexists; reflexivity.
  - inversion H; subst. split; auto. eexists; reflexivity.
Qed.

Lemma mut_from_shape smin smax n dr : (smin < smax)%Q -> forall ds i v st v' st',
  mut_from expf tau tau' smin smax n dr i ds v st = Some (v', st') ->
  length st' = length ds /\ Forall2 (fun d x => d_int d = true -> is_int x) ds v'.
Proof.
  intros Hs. induction ds as [|d ds IH]; intros i v st v' st' H; cbn [mut_from] in H.
  - inversion H; subst. split; auto.
  - destruct v as [|x v]; [discriminate|]. destruct st as [|s st]; [discriminate|].
    destruct (mut_coord _ _ _ _ _ _ _ _ _ _ _) as [[y t]|] eqn:E; [|discriminate].
    destruct (mut_from _ _ _ _ _ _ _ _ _ _ _) as [[ys ts]|] eqn:E2; [|discriminate].
    inversion H; subst. destruct (IH _ _ _ _ _ E2) as [I1 I2]. split; [simpl; lia|].
    constructor; auto. intros Ei. eapply mut_coord_int; eauto.
Qed.

Lemma mutES_ok p dr ind st v s : wf_dims (p_dims p) -> (p_smin p < p_smax p)%Q ->
  mutES expf tau tau' p dr ind st = Some (v, s) -> good_pair p (v, s).
Proof.
  intros W Hs H. unfold mutES in H.
  destruct (mut_from _ _ _ _ _ _ _ _ _ _ _) as [[v0 s0]|] eqn:E; [|discriminate]. inversion H; subst.
  destruct (mut_from_shape _ _ _ _ Hs _ _ _ _ _ _ E) as [I1 I2]. split; [|split]; simpl.
  - apply clip_feasible; auto.
  - rewrite map_length. auto.
  - apply np_clip_strat. lra.
Qed.

Lemma mut_coord_total smin smax n dr i d x s : (forall q, 0 < expf q)%Q ->
  (0 < smin)%Q -> (smin < smax)%Q -> (smax <= 1)%Q -> (smin <= s)%Q -> (s <= smax)%Q ->
  (d_lo d <= x)%Q -> (x <= d_hi d)%Q ->
  exists y t, mut_coord expf tau tau' smin smax n dr i d x s = Some (y, t).
Proof.
  intros He H0 H1 H2 H3 H4 H5 H6. unfold mut_coord. destruct (d_int d); [|eauto].
  assert (E1 : Qeq_bool s 0 = false).
  { destruct (Qeq_bool s 0) eqn:E; auto. qprop. lra. }
  assert (E2 : Qeq_bool (smax - smin) 0 = false).
  { destruct (Qeq_bool (smax - smin) 0) eqn:E; auto. qprop. lra. }
  rewrite E1, E2. cbn [orb]. cbv zeta.
  match goal with |- context [Qeq_bool ?q 0] => assert (E3 : (0 < q)%Q) end.
  { assert (0 <= (1 - s) / s)%Q. { apply Qle_shift_div_l; lra. }
    match goal with |- context [expf ?a] => pose proof (He a) end. nra. }
  match goal with |- context [Qeq_bool ?q 0] => destruct (Qeq_bool q 0) eqn:E4; [qprop; lra|] end.
  destruct (Qltb _ _); [|eauto].
  destruct (Z.eqb_spec (trunc (d_lo d)) (trunc (d_hi d))); [eauto|].
  assert (d_lo d <= d_hi d)%Q by lra. pose proof (trunc_mono _ _ H).
  destruct (perturb_total x (d_lo d) (d_hi d) (md_pick dr i) H5 H6 ltac:(lia)) as (z & Hz & _).
  destruct (zremove _ _); [|discriminate]. rewrite Hz. eauto.
Qed.

Lemma mutES_total p dr ind st : (forall q, 0 < expf q)%Q -> wf_dims (p_dims p) ->
  (0 < p_smin p)%Q -> (p_smin p < p_smax p)%Q -> (p_smax p <= 1)%Q ->
  length ind = length (p_dims p) -> length st = length (p_dims p) -> strat_ok (p_smin p) (p_smax p) st ->
  exists v s, mutES expf tau tau' p dr ind st = Some (v, s).
Proof.
  intros He W H0 H1 H2 L1 L2 HS. unfold mutES. rewrite dims_bounds_eq.
  pose proof (clip_inside _ _ W L1) as I. set (c := clip_vec (dim_bounds (p_dims p)) ind) in *. clearbody c.
  enough (exists v s, mut_from expf tau tau' (p_smin p) (p_smax p) (length ind) dr 0 (p_dims p) c st = Some (v, s)) as (v & s & ->) by eauto.
  generalize 0 as i. generalize (length ind) as n. apply inside_dims in I. clear W L1.
  revert st L2 HS. induction I as [|d x ds v [I1 I2] I IH]; intros st L2 HS n i; simpl; eauto.
  destruct st as [|s st]; [discriminate|]. inversion HS as [|? ? [S1 S2] S']; subst.
  destruct (mut_coord_total _ _ n dr i d x s He H0 H1 H2 S1 S2 I1 I2) as (y & t & ->).
  destruct (IH st ltac:(simpl in L2; lia) S' n (S i)) as (ys & ts & ->). eauto.
Qed.

(* ---------- offspring ---------- *)
Definition m_ok (p : es_par) (m : member) : Prop := good_pair p (m_ind m, m_strat m).

Lemma strat_exchanged {A} (P : A -> Prop) p q a b c d :
  exchanged p q a b c d -> Forall P a -> Forall P b -> Forall P c.
Proof.
  intros (_ & _ & H) Fa Fb. rewrite Forall_forall in *. intros x Hx. apply In_nth_error in Hx. destruct Hx as [i Hi].
  destruct (H i) as [H1 H2]. destruct (le_lt_dec p i), (le_lt_dec q i).
  - rewrite (proj1 (H2 ltac:(lia))) in Hi. apply Fa. eapply nth_error_In; eauto.
  - rewrite (proj1 (H1 ltac:(lia))) in Hi. apply Fb. eapply nth_error_In; eauto.
  - rewrite (proj1 (H2 ltac:(lia))) in Hi. apply Fa. eapply nth_error_In; eauto.
  - rewrite (proj1 (H2 ltac:(lia))) in Hi. apply Fa. eapply nth_error_In; eauto.
Qed.

Lemma gen_one_ok p dr pop pop' x s : wf_dims (p_dims p) -> (p_smin p < p_smax p)%Q ->
  Forall (m_ok p) pop -> gen_one expf tau tau' p dr pop = Some (pop', (x, s)) ->
  Forall (m_ok p) pop' /\ length pop' = length pop /\ feasible (p_dims p) x /\ length s = length (p_dims p) /\
  (p_blend p = false -> strat_ok (p_smin p) (p_smax p) s).
Proof.
  intros W Hs F H. unfold gen_one in H.
  destruct (Qltb (od_rn dr) (p_cxpb p)).
  - destruct (length pop <? 2); [discriminate|]. cbv zeta in H.
    destruct (nth_error pop (od_i dr mod length pop)) as [m1|] eqn:E1; [|discriminate].
    destruct (nth_error pop (if _ <? _ then _ else _)) as [m2|] eqn:E2; [|discriminate].
    pose proof (proj1 (Forall_forall _ _) F m1 (nth_error_In _ _ E1)) as (G1 & G2 & G3).
    pose proof (proj1 (Forall_forall _ _) F m2 (nth_error_In _ _ E2)) as (K1 & K2 & K3). simpl in G1, G2, G3, K1, K2, K3.
    pose proof (feasible_length _ _ G1) as L1. pose proof (feasible_length _ _ K1) as L2.
    rewrite !dims_bounds_eq in H.
    destruct (p_blend p).
    + destruct (cxESBlend (p_alpha p) (od_u dr) (od_w dr) (m_ind m1) (m_ind m2) (m_strat m1) (m_strat m2)) as [[[c1 c2] t1] t2] eqn:Ec.
      apply blend_ok in Ec; try congruence. destruct Ec as (B1 & B2 & B3 & B4 & _).
      injection H as <- <- <-. split; auto. split; auto. split; [|split; [congruence|discriminate]].
      apply es_discrete_feasible; auto. apply clip_length; auto. congruence.
    + destruct (cxES2point _ _ _ _ _ _) as [[[[c1 c2] t1] t2]|] eqn:Ec; [|discriminate].
      assert (N2 : 2 <= length (p_dims p)).
      { destruct (le_lt_dec 2 (length (p_dims p))); auto.
        rewrite two_point_short in Ec by lia. discriminate. }
      destruct (two_point (od_r1 dr) (od_r2 dr) _ _ _ _ _ N2 L1 L2 G2 K2) as (a & b & c1' & c2' & t1' & t2' & Ec' & _ & _ & _ & X1 & X2).
      rewrite Ec in Ec'. injection Ec' as -> -> -> ->.
      injection H as <- <- <-. split; auto. split; auto. split; [|split].
      * apply es_discrete_feasible; auto. apply clip_length; auto. rewrite (proj1 X1). congruence.
      * rewrite (proj1 X2). auto.
      * intros _. eapply strat_exchanged; eauto.
  - destruct (Qltb (od_rn dr) (p_cxpb p + p_mutpb p)).
    + destruct (choice pop (od_i dr)) as [m|] eqn:E; [|discriminate].
      destruct (mutES _ _ _ _ _ _ _) as [[v t]|] eqn:E2; [|discriminate]. injection H as <- <- <-.
      apply mutES_ok in E2; auto. destruct E2 as (M1 & M2 & M3). auto 10.
    + destruct (choice pop (od_i dr)) as [m|] eqn:E; [|discriminate]. injection H as <- <- <-.
      apply choice_In in E. pose proof (proj1 (Forall_forall _ _) F m E) as (G1 & G2 & G3). simpl in G1, G2, G3.
      assert (X : feasible (p_dims p) (es_ensure_discrete (p_dims p) (m_ind m))).
      { apply es_discrete_feasible; auto. apply feasible_length; auto. }
      split; [|split; [apply length_set_nth|auto 10]]. apply Forall_set_nth; auto. split; auto.
Qed.

Lemma gen_loop_ok p drs : wf_dims (p_dims p) -> (p_smin p < p_smax p)%Q -> forall todo k pop os,
  Forall (m_ok p) pop -> gen_loop expf tau tau' p drs k todo pop = Some os ->
  length os = todo /\ Forall (fun o => feasible (p_dims p) (fst o) /\ length (snd o) = length (p_dims p) /\
     (p_blend p = false -> strat_ok (p_smin p) (p_smax p) (snd o))) os.
Proof.
  intros W Hs. induction todo as [|t IH]; intros k pop os F H; cbn [gen_loop] in H.
  - inversion H; subst. auto.
  - destruct (gen_one _ _ _ _ _ _) as [[pop' [x s]]|] eqn:E; [|discriminate].
    destruct (gen_loop _ _ _ _ _ _ _ _) as [os'|] eqn:E2; [|discriminate]. inversion H; subst.
    apply gen_one_ok in E; auto. destruct E as (P1 & P2 & P3 & P4 & P5).
    destruct (IH _ _ _ P1 E2) as [I1 I2]. simpl. split; auto.
Qed.

Lemma offspring_ok p drs pop os : wf_dims (p_dims p) -> (p_smin p < p_smax p)%Q ->
  (p_clip p = true \/ p_blend p = false) ->
  Forall (m_ok p) pop -> GenOffspring expf tau tau' p drs pop = Some os ->
  length os = p_lambda p /\ Forall (good_pair p) os.
Proof.
  intros W Hs C F H. unfold GenOffspring in H.
  destruct (gen_loop _ _ _ _ _ _ _ _) as [os'|] eqn:E; [|discriminate].
  destruct (gen_loop_ok _ _ W Hs _ _ _ _ F E) as [L G]. inversion H; subst.
  destruct (p_clip p).
  - rewrite map_length. split; auto. rewrite Forall_forall in *. intros o Ho. apply in_map_iff in Ho.
    destruct Ho as (o' & <- & Ho). destruct (G o' Ho) as (G1 & G2 & G3). split; [|split]; simpl; auto.
    + rewrite map_length; auto.
    + apply np_clip_strat. lra.
  - destruct C as [C|C]; [discriminate|]. split; auto. eapply Forall_impl; [|exact G].
    intros o (G1 & G2 & G3). split; auto.
Qed.

Lemma gen_one_total p dr pop : (forall q, 0 < expf q)%Q -> wf_dims (p_dims p) ->
  (0 < p_smin p)%Q -> (p_smin p < p_smax p)%Q -> (p_smax p <= 1)%Q ->
  2 <= length pop -> (p_blend p = true \/ 2 <= length (p_dims p)) -> Forall (m_ok p) pop ->
  exists pop' x s, gen_one expf tau tau' p dr pop = Some (pop', (x, s)).
Proof.
  intros He W H0 H1 H2 Hn Hd F. unfold gen_one. cbv zeta.
  assert (Hne : pop <> []) by (intros ->; simpl in Hn; lia).
  destruct (Qltb (od_rn dr) (p_cxpb p)).
  - destruct (Nat.ltb_spec (length pop) 2); [lia|].
    pose proof (Nat.mod_upper_bound (od_i dr) (length pop) ltac:(lia)) as B1.
    pose proof (Nat.mod_upper_bound (od_j dr) (length pop - 1) ltac:(lia)) as B2.
    destruct (nth_error pop (od_i dr mod length pop)) as [m1|] eqn:E1; [|apply nth_error_None in E1; lia].
    set (b := if od_j dr mod (length pop - 1) <? od_i dr mod length pop then _ else _).
    assert (B3 : b < length pop) by (unfold b; destruct (Nat.ltb_spec (od_j dr mod (length pop - 1)) (od_i dr mod length pop)); lia).
    destruct (nth_error pop b) as [m2|] eqn:E2; [|apply nth_error_None in E2; lia].
    pose proof (proj1 (Forall_forall _ _) F m1 (nth_error_In _ _ E1)) as (G1 & G2 & G3).
    pose proof (proj1 (Forall_forall _ _) F m2 (nth_error_In _ _ E2)) as (K1 & K2 & K3). simpl in G1, G2, G3, K1, K2, K3.
    pose proof (feasible_length _ _ G1) as L1. pose proof (feasible_length _ _ K1) as L2.
    destruct (p_blend p) eqn:Eb.
    + destruct (cxESBlend _ _ _ _ _ _ _) as [[[c1 c2] t1] t2]. eauto.
    + destruct Hd as [Hd|Hd]; [discriminate|].
      destruct (two_point (od_r1 dr) (od_r2 dr) _ _ _ _ _ Hd L1 L2 G2 K2) as (x & y & c1' & c2' & t1' & t2' & -> & _). eauto.
  - destruct (choice_total pop (od_i dr) Hne) as [m Em]. rewrite Em.
    destruct (Qltb _ _); [|eauto].
    pose proof (proj1 (Forall_forall _ _) F m (choice_In _ _ _ Em)) as (G1 & G2 & G3). simpl in G1, G2, G3.
    destruct (mutES_total p (od_mut dr) (m_ind m) (m_strat m) He W H0 H1 H2 (feasible_length _ _ G1) G2 G3) as (v & s & ->). eauto.
Qed.

Lemma gen_loop_total p drs : (forall q, 0 < expf q)%Q -> wf_dims (p_dims p) ->
  (0 < p_smin p)%Q -> (p_smin p < p_smax p)%Q -> (p_smax p <= 1)%Q ->
  (p_blend p = true \/ 2 <= length (p_dims p)) -> forall todo k pop, 2 <= length pop ->
  Forall (m_ok p) pop -> exists os, gen_loop expf tau tau' p drs k todo pop = Some os.
Proof.
  intros He W H0 H1 H2 Hd. induction todo as [|t IH]; intros k pop Hn F; cbn [gen_loop]; eauto.
  destruct (gen_one_total p (drs k) pop He W H0 H1 H2 Hn Hd F) as (pop' & x & s & E). rewrite E.
  apply gen_one_ok in E; auto. destruct E as (P1 & P2 & _).
  destruct (IH (S k) pop' ltac:(lia) P1) as (os & ->). eauto.
Qed.

(* ---------- generations ---------- *)
Section Run.
Context (m : mode) (fit : list Q -> Q) (p : es_par).
Let g := fun x => as_max m (fit x).

Lemma select_best (os : list (list Q * list Q)) mu k v b :
  argmax (map m_fit (select (map (evaluate m fit) os) mu)) = Some (k, v) ->
  nth_error (select (map (evaluate m fit) os) mu) k = Some b ->
  max_of g (map fst os) (m_ind b) v.
Proof.
  intros H Hb. apply argmax_spec in H. destruct H as (H1 & H2 & _).
  rewrite nth_error_map, Hb in H1. simpl in H1. inversion H1; subst v. clear H1.
  assert (Hin : In b (map (evaluate m fit) os)).
  { apply (in_sort_desc m_fit). eapply in_firstn. eapply nth_error_In; eauto. }
  assert (Hall : forall z, In z (map (evaluate m fit) os) -> (m_fit z <= m_fit b)%Q).
  { intros z Hz. apply (in_sort_desc m_fit) in Hz. unfold select in *.
    rewrite <- (firstn_skipn mu (sort_desc m_fit (map (evaluate m fit) os))) in Hz.
    apply in_app_iff in Hz. destruct Hz as [Hz|Hz].
    - apply H2. apply in_map; auto.
    - eapply (sorted_split _ _ mu (sort_desc_sorted m_fit _)); eauto. eapply nth_error_In; eauto. }
  apply in_map_iff in Hin. destruct Hin as (o & <- & Ho). unfold evaluate in *. simpl in *.
  split; [apply in_map; auto|]. split; [reflexivity|].
  intros z Hz. apply in_map_iff in Hz. destruct Hz as (o' & <- & Ho').
  apply (Hall (Mem (fst o') (snd o') (as_max m (fit (fst o'))))).
  apply (in_map (fun o => Mem (fst o) (snd o) (as_max m (fit (fst o)))) os o' Ho').
Qed.

(** Invariant of the generation loop. *)
Definition es_inv (st : es_state) : Prop :=
  match es_best st with
  | None => es_seen st = [] /\ es_scores st = []
  | Some (x, y) =>
      max_of g (es_seen st) x y /\ es_scores st <> [] /\
      (forall s, In s (es_scores st) -> (s <= y)%Q) /\ (exists s, In s (es_scores st) /\ (s == y)%Q)
  end.

Lemma es_gen_inv drs st st' : es_gen expf tau tau' m fit p drs st = Some st' -> es_inv st ->
  es_inv st' /\ length (es_scores st') = S (length (es_scores st)) /\ es_best st' <> None.
Proof.
  unfold es_gen. intros H I.
  destruct (GenOffspring _ _ _ _ _ _) as [os|] eqn:EG; [|discriminate].
  destruct (argmax _) as [[k v]|] eqn:EA; [|discriminate].
  destruct (nth_error _ k) as [b|] eqn:EB; [|discriminate]. inversion H; subst st'. clear H.
  pose proof (select_best _ _ _ _ _ EA EB) as M. unfold es_inv in *. cbn [es_best es_seen es_scores].
  destruct (es_best st) as [[x y]|].
  - destruct I as (I1 & I2 & I3 & I4). destruct (max_of_app _ _ _ _ _ _ _ I1 M) as [A1 A2].
    destruct (Qltb y v) eqn:E; qprop.
    + split; [|split; [rewrite app_length; simpl; lia|congruence]].
      split; [apply A2; lra|]. split; [intros E2; apply app_eq_nil in E2; destruct E2; discriminate|]. split.
      * intros s Hs. apply in_app_iff in Hs. destruct Hs as [Hs|[<-|[]]]; [|apply Qle_refl]. pose proof (I3 s Hs). lra.
      * exists v. split; [apply in_app_iff; simpl; auto|reflexivity].
    + split; [|split; [rewrite app_length; simpl; lia|congruence]].
      split; [apply A1; lra|]. split; [intros E2; apply app_eq_nil in E2; destruct E2; discriminate|]. split.
      * intros s Hs. apply in_app_iff in Hs. destruct Hs as [Hs|[<-|[]]]; auto.
      * destruct I4 as (s & Hs & Es). exists s. split; auto. apply in_app_iff; auto.
  - destruct I as [I1 I2]. rewrite I1, I2. simpl. split; [|split; [auto|congruence]].
    split; auto. split; [discriminate|]. split.
    + intros s [<-|[]]. apply Qle_refl.
    + exists v. split; [simpl; auto|reflexivity].
Qed.

Lemma es_gens_inv drs todo : forall gi st st', es_gens expf tau tau' m fit p drs gi todo st = Some st' -> es_inv st ->
  es_inv st' /\ length (es_scores st') = todo + length (es_scores st) /\ (todo <> 0 -> es_best st' <> None).
Proof.
  induction todo as [|t IH]; intros gi st st' H I; cbn [es_gens] in H.
  - inversion H; subst. repeat split; auto; lia.
  - destruct (es_gen _ _ _ _ _ _ _ _) as [st1|] eqn:E; [|discriminate].
    apply es_gen_inv in E; auto. destruct E as (E1 & E2 & E3).
    destruct (IH _ _ _ H E1) as (J1 & J2 & J3). repeat split; auto; [lia|].
    intros _. destruct t; [|apply J3; lia]. simpl in H. inversion H; subst. auto.
Qed.
End Run.
End Mut.

Lemma evolute_best expf tau tau' m fit p drs init ngen r :
  evolute expf tau tau' m fit p drs init ngen = Some r ->
  best_of m fit (r_seen r) (r_x r) (r_y r) /\
  length (r_local r) = ngen /\ length (r_global r) = ngen /\
  never_worse m (r_global r) /\
  (forall i v, nth_error (r_global r) i = Some v ->
     (forall x, In x (firstn (S i) (r_local r)) -> as_good m v x) /\ In v (firstn (S i) (r_local r))) /\
  (forall v, nth_error (r_global r) (ngen - 1) = Some v -> (v == r_y r)%Q).
Proof.
  unfold evolute. intros H.
  destruct (es_gens _ _ _ _ _ _ _ _ _ _) as [st|] eqn:E; [|discriminate].
  apply es_gens_inv in E; [|split; reflexivity]. destruct E as (I & L & _). unfold es_inv in I.
  destruct (es_best st) as [[x y]|]; [|discriminate]. destruct I as (I1 & I2 & I3 & I4).
  inversion H; subst r. clear H. cbn [r_seen r_x r_y r_local r_global es_scores es_start length] in *.
  rewrite Nat.add_0_r in L.
  split; [apply max_of_best; auto|]. split; [rewrite map_length; auto|].
  split; [rewrite accumulate_length, map_length; auto|].
  change (match m with Mmin => qmin2 | Mmax => qmax2 end) with (acc_op m).
  split; [apply accumulate_never_worse|]. split; [intros i v; apply accumulate_spec|].
  intros v Hv. apply accumulate_spec in Hv. destruct Hv as [V1 V2].
  assert (N : ngen <> 0) by (rewrite <- L; destruct (es_scores st); simpl; [congruence|lia]).
  replace (S (ngen - 1)) with (length (map (as_max m) (es_scores st))) in V1, V2 by (rewrite map_length; lia).
  rewrite firstn_all in V1, V2. apply in_map_iff in V2. destruct V2 as (s & <- & Hs).
  destruct I4 as (s' & Hs' & Es'). pose proof (I3 s Hs) as B1.
  assert (B2 : as_good m (as_max m s) (as_max m s')) by (apply V1; apply in_map; auto).
  apply as_max_good in B2. rewrite !as_max_invol in B2. assert (B3 : (s == y)%Q) by lra. rewrite B3. reflexivity.
Qed.

(** All evaluated offspring are points of the space. *)
Lemma select_Forall P os mu : Forall P os -> Forall P (select os mu).
Proof.
  rewrite !Forall_forall. intros H x Hx. apply H. apply (in_sort_desc m_fit). eapply in_firstn; eauto.
Qed.
Lemma select_length pop mu : length (select pop mu) = Nat.min mu (length pop).
Proof. unfold select. rewrite firstn_length, sort_desc_length. reflexivity. Qed.

Lemma es_gens_feasible expf tau tau' m fit p drs : wf_dims (p_dims p) -> (p_smin p < p_smax p)%Q ->
  (p_clip p = true \/ p_blend p = false) -> forall todo gi st st',
  es_gens expf tau tau' m fit p drs gi todo st = Some st' ->
  Forall (m_ok p) (es_pop st) -> Forall (feasible (p_dims p)) (es_seen st) ->
  Forall (m_ok p) (es_pop st') /\ Forall (feasible (p_dims p)) (es_seen st') /\
  length (es_seen st') = todo * p_lambda p + length (es_seen st).
Proof.
  intros W Hs C. induction todo as [|t IH]; intros gi st st' H F HS; cbn [es_gens] in H.
  - inversion H; subst. auto.
  - destruct (es_gen _ _ _ _ _ _ _ _) as [st1|] eqn:E; [|discriminate]. unfold es_gen in E.
    destruct (GenOffspring _ _ _ _ _ _) as [os|] eqn:EG; [|discriminate].
    destruct (argmax _) as [[k v]|]; [|discriminate]. destruct (nth_error _ k); [|discriminate].
    inversion E; subst st1. clear E. destruct (offspring_ok _ _ _ _ _ _ _ W Hs C F EG) as [L G].
    apply IH in H; cbn [es_pop es_seen] in *.
    + destruct H as (H1 & H2 & H3). repeat split; auto. rewrite H3, app_length, map_length, L. lia.
    + apply select_Forall. rewrite Forall_forall in *. intros x Hx. apply in_map_iff in Hx.
      destruct Hx as (o & <- & Ho). destruct (G o Ho) as (G1 & G2 & G3). split; auto.
    + apply Forall_app. split; auto. rewrite Forall_forall in *. intros x Hx. apply in_map_iff in Hx.
      destruct Hx as (o & <- & Ho). apply G; auto.
Qed.

Lemma evolute_feasible expf tau tau' m fit p drs init ngen r : wf_dims (p_dims p) -> (p_smin p < p_smax p)%Q ->
  (p_clip p = true \/ p_blend p = false) -> Forall (good_pair p) init ->
  evolute expf tau tau' m fit p drs init ngen = Some r ->
  Forall (feasible (p_dims p)) (r_seen r) /\ feasible (p_dims p) (r_x r) /\ length (r_seen r) = ngen * p_lambda p.
Proof.
  intros W Hs C G H. pose proof (evolute_best _ _ _ _ _ _ _ _ _ _ H) as ((B & _) & _).
  unfold evolute in H. destruct (es_gens _ _ _ _ _ _ _ _ _ _) as [st|] eqn:E; [|discriminate].
  apply (es_gens_feasible _ _ _ _ _ _ _ W Hs C) in E.
  - destruct E as (E1 & E2 & E3). destruct (es_best st) as [[x y]|]; [|discriminate]. inversion H; subst r.
    cbn [r_seen r_x] in *. split; auto. split; [|simpl in E3; lia]. rewrite Forall_forall in E2. auto.
  - simpl. rewrite Forall_forall in *. intros z Hz. apply in_map_iff in Hz. destruct Hz as (o & <- & Ho).
    destruct (G o Ho) as (G1 & G2 & G3). split; auto.
  - constructor.
Qed.

Lemma es_gens_total expf tau tau' m fit p drs : (forall q, 0 < expf q)%Q -> wf_dims (p_dims p) ->
  (0 < p_smin p)%Q -> (p_smin p < p_smax p)%Q -> (p_smax p <= 1)%Q ->
  (p_clip p = true \/ p_blend p = false) -> (p_blend p = true \/ 2 <= length (p_dims p)) ->
  2 <= p_mu p -> p_mu p <= p_lambda p -> forall todo gi st,
  2 <= length (es_pop st) -> Forall (m_ok p) (es_pop st) ->
  exists st', es_gens expf tau tau' m fit p drs gi todo st = Some st'.
Proof.
  intros He W H0 H1 H2 C Hd M1 M2. induction todo as [|t IH]; intros gi st Hn F; cbn [es_gens]; eauto.
  unfold es_gen.
  assert (exists os, GenOffspring expf tau tau' p (drs gi) (es_pop st) = Some os) as (os & EG).
  { unfold GenOffspring. destruct (gen_loop_total expf tau tau' p (drs gi) He W H0 H1 H2 Hd (p_lambda p) 0 (es_pop st) Hn F) as (os & ->). eauto. }
  rewrite EG. destruct (offspring_ok _ _ _ _ _ _ _ W H1 C F EG) as [L G].
  set (pop' := select (map (evaluate m fit) os) (p_mu p)).
  assert (L' : length pop' = p_mu p) by (unfold pop'; rewrite select_length, map_length; lia).
  destruct (argmax_Some (map m_fit pop')) as (k & v & EA).
  { intros E. apply map_eq_nil in E. rewrite E in L'. simpl in L'. lia. }
  rewrite EA. apply argmax_spec in EA. destruct EA as [EA _]. rewrite nth_error_map in EA.
  destruct (nth_error pop' k) as [b|]; [|discriminate].
  apply IH; cbn [es_pop]; [lia|]. unfold pop'. apply select_Forall. rewrite Forall_forall in *. intros x Hx.
  apply in_map_iff in Hx. destruct Hx as (o & <- & Ho). destruct (G o Ho) as (G1 & G2 & G3). split; auto.
Qed.

Lemma evolute_total expf tau tau' m fit p drs init ngen : (forall q, 0 < expf q)%Q -> wf_dims (p_dims p) ->
  (0 < p_smin p)%Q -> (p_smin p < p_smax p)%Q -> (p_smax p <= 1)%Q ->
  (p_clip p = true \/ p_blend p = false) -> (p_blend p = true \/ 2 <= length (p_dims p)) ->
  2 <= p_mu p -> p_mu p <= p_lambda p -> length init = p_lambda p -> Forall (good_pair p) init -> 1 <= ngen ->
  exists r, evolute expf tau tau' m fit p drs init ngen = Some r.
Proof.
  intros He W H0 H1 H2 C Hd M1 M2 L G N. unfold evolute.
  destruct (es_gens_total expf tau tau' m fit p drs He W H0 H1 H2 C Hd M1 M2 ngen 0 (es_start m fit init)) as (st & E).
  - simpl. rewrite map_length. lia.
  - simpl. rewrite Forall_forall in *. intros z Hz. apply in_map_iff in Hz. destruct Hz as (o & <- & Ho).
    destruct (G o Ho) as (G1 & G2 & G3). split; auto.
  - rewrite E. apply es_gens_inv in E; [|split; reflexivity]. destruct E as (_ & _ & E).
    destruct (es_best st) as [[x y]|]; eauto. exfalso. apply E; [lia|reflexivity].
Qed.

(* ---------- witness: the initial population is ignored ---------- *)
Definition wit_par : es_par := EsPar [Dim false 0 10; Dim false 0 10] 1 2 false (1#2) 0 0 (1#100) (1#2) true.
Definition wit_draw : odraw := ODraw (1#2) 0 0 0 0 (fun _ => 0%Q) (fun _ => 0%Q) (MDraw (fun _ => 0%Q) (fun _ => 0%Q) (fun _ => 0%Q) (fun _ => 0%Q) (fun _ => 0)).
Definition wit_fit (x : list Q) : Q := nth 0 x 0%Q.
Lemma initial_ignored expf tau tau' : exists p drs init ngen r x0,
  wf_dims (p_dims p) /\ Forall (good_pair p) init /\ length init = p_lambda p /\ p_mu p <= p_lambda p /\
  evolute expf tau tau' Mmax wit_fit p drs init ngen = Some r /\
  In x0 (r_init r) /\ (r_y r < wit_fit x0)%Q.
Proof.
  exists wit_par, (fun _ _ => wit_draw), [([1; 1], [1#10; 1#10]); ([5; 5], [1#10; 1#10])]%Q, 3.
  eexists. exists [5; 5]%Q. repeat match goal with |- _ /\ _ => split end.
  - repeat constructor; simpl; try (unfold Qle; simpl; lia); discriminate.
  - repeat constructor; simpl; try (unfold Qle; simpl; lia); discriminate.
  - reflexivity.
  - simpl; lia.
  - reflexivity.
  - simpl. auto.
  - reflexivity.
Qed.

(* ---------- a concrete run ---------- *)
Definition demo_par : es_par :=
  EsPar [Dim true 0 5; Dim false (-1) 2] 2 3 false (1#10) (1#3) (1#3) (1#100) (1#2) true.
Definition demo_draws (k : nat) : odraw :=
  ODraw (match k with O => 0%Q | 1 => (1#2)%Q | _ => (9#10)%Q end) k 0 1 0 (fun _ => 0%Q) (fun _ => 0%Q)
    (MDraw (fun _ => 1%Q) (fun _ => 1#2)%Q (fun _ => 3%Q) (fun _ => 0%Q) (fun _ => 1)).
Definition demo_init : list (list Q * list Q) :=
  [([1; 1#2], [1#10; 1#10]); ([4; 2], [1#2; 1#2]); ([0; -1], [1#100; 1#5])]%Q.
Lemma demo_good : wf_dims (p_dims demo_par) /\ Forall (good_pair demo_par) demo_init.
Proof.
  split.
  - repeat constructor; simpl; try (unfold Qle; simpl; lia); try discriminate;
      intros; eexists; reflexivity.
  - repeat constructor; simpl; try (unfold Qle; simpl; lia); try discriminate;
      intros; eexists; reflexivity.
Qed.
Lemma demo_run : forall r,
  evolute (fun q => 1 + q * q)%Q (fun _ => 1%Q) (fun _ => 1#2)%Q Mmin (fun x => nth 0 x 0 + nth 1 x 0)%Q
    demo_par (fun _ => demo_draws) demo_init 2 = Some r ->
  length (r_seen r) = 6 /\ Forall (feasible (p_dims demo_par)) (r_seen r).
Proof.
  intros r H. destruct demo_good as [W G].
  apply evolute_feasible in H; auto; [|reflexivity]. destruct H as (H1 & _ & H2). auto.
Qed.
Lemma demo_run_exists : exists r,
  evolute (fun q => 1 + q * q)%Q (fun _ => 1%Q) (fun _ => 1#2)%Q Mmin (fun x => nth 0 x 0 + nth 1 x 0)%Q
    demo_par (fun _ => demo_draws) demo_init 2 = Some r.
Proof.
  destruct demo_good as [W G].
  apply evolute_total; auto; try reflexivity; try discriminate; simpl; auto with arith.
  intros q. nra.
Qed.
