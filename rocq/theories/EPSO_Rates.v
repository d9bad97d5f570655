(** Proofs about EPSO: which strategy a particle uses, and how the probabilities adapt. *)
From Coq Require Import List Arith ZArith QArith Qround Bool Lia Lqa.
From Verif Require Import Base BaseFacts Space_Model Space_Spec Space_Facts Opt_Model Opt_Spec Opt_Facts Opt_Facts2
  Pop_Model Pop_Spec Pop_Proofs Swarm_Model Swarm_Proofs HHO_Proofs HCLPSO_Model HCLPSO_Spec HCLPSO_Proofs EPSO_Model EPSO_Spec EPSO_Proofs.
Import ListNotations.
Open Scope nat_scope.

Lemma uses_app s a b : uses s (a ++ b) = uses s a + uses s b.
Proof. unfold uses. rewrite filter_app, app_length. auto. Qed.
Lemma wins_app s a b : wins s (a ++ b) = wins s a + wins s b.
Proof. unfold wins. rewrite filter_app, app_length. auto. Qed.
Lemma wins_le s a : wins s a <= uses s a.
Proof. unfold wins, uses. induction a as [|e a IH]; simpl; auto. destruct (snd (fst e) =? s), (snd e); simpl; lia. Qed.

Lemma credit_bounds s l : (1#100 <= credit s l)%Q /\ (credit s l <= 101#100)%Q.
Proof.
  unfold credit. pose proof (wins_le s l) as H.
  assert (P : (0 < qnat (max 1 (uses s l)))%Q) by (unfold qnat; change 0%Q with (inject_Z 0); rewrite <- Zlt_Qlt; lia).
  assert (A : (0 <= qnat (wins s l))%Q) by (unfold qnat; change 0%Q with (inject_Z 0); rewrite <- Zle_Qle; lia).
  assert (B : (qnat (wins s l) <= qnat (max 1 (uses s l)))%Q) by (unfold qnat; rewrite <- Zle_Qle; lia).
  assert (C : (0 <= qnat (wins s l) / qnat (max 1 (uses s l)))%Q) by (apply Qle_shift_div_l; lra).
  assert (D : (qnat (wins s l) / qnat (max 1 (uses s l)) <= 1)%Q) by (apply Qle_shift_div_r; lra). lra.
Qed.

Lemma share_pos s l : (1#505 <= share s l)%Q.
Proof.
  unfold share. pose proof (credit_bounds s l). pose proof (credit_bounds 0 l). pose proof (credit_bounds 1 l). pose proof (credit_bounds 2 l).
  pose proof (credit_bounds 3 l). pose proof (credit_bounds 4 l). apply Qle_shift_div_l; lra.
Qed.
Lemma share_sum l : (share 0 l + share 1 l + share 2 l + share 3 l + share 4 l == 1)%Q.
Proof.
  unfold share. pose proof (credit_bounds 0 l). pose proof (credit_bounds 1 l). pose proof (credit_bounds 2 l).
  pose proof (credit_bounds 3 l). pose proof (credit_bounds 4 l). field. lra.
Qed.

(** The intervals. *)
Lemma pick_spec rk u : forall s0 s, ep_pick s0 rk u = Some s -> exists t, s = s0 + t /\ t + 1 < length rk /\ (nth t rk 0 <= u)%Q /\ (u < nth (S t) rk 0)%Q.
Proof.
  induction rk as [|a rk IH]; intros s0 s H; [discriminate|]. destruct rk as [|b rk]; [discriminate|]. cbn [ep_pick] in H.
  destruct (Qle_bool a u && Qltb u b) eqn:E.
  - inversion H; subst s. exists 0. apply andb_prop in E. destruct E as (E1 & E2). apply Qle_bool_iff in E1. qprop. simpl. split; [lia|]. split; [lia|]. auto.
  - apply IH in H. destruct H as (t & -> & L & A & B). exists (S t). simpl in *. split; [lia|]. split; [lia|]. auto.
Qed.
Lemma pick_total rk u : forall s0, (hd 0 rk <= u)%Q -> (u < last rk 0)%Q -> 2 <= length rk -> exists s, ep_pick s0 rk u = Some s.
Proof.
  induction rk as [|a rk IH]; intros s0 H1 H2 L; [simpl in L; lia|]. destruct rk as [|b rk]; [simpl in L; lia|]. cbn [ep_pick].
  destruct (Qle_bool a u && Qltb u b) eqn:E; eauto. cbn [hd] in H1. apply andb_false_iff in E. destruct E as [E|E].
  - apply Qle_bool_false in E. lra.
  - qprop. destruct rk as [|c rk]; [simpl in H2; lra|]. apply IH; [simpl; lra|auto|simpl; lia].
Qed.

Definition mem_ok (mm : emem) : Prop :=
  length (em_pk mm) = 5 /\ length (em_rk mm) = 6 /\ length (em_succ mm) = 5 /\ length (em_fail mm) = 5 /\
  forall s, s <= 5 -> (nth s (em_rk mm) 0 == upto s (em_pk mm))%Q.

Lemma list5 {A} (l : list A) : length l = 5 -> exists a b c d e, l = [a; b; c; d; e].
Proof. intros H. do 5 (destruct l as [|? l]; [discriminate|]). destruct l; [|discriminate]. repeat eexists. Qed.

(** [row] holds the shares over the events [l]. *)
Definition row_is (row : list Q) (f : nat -> Q) : Prop := length row = 5 /\ forall s, s < 5 -> (nth s row 0 == f s)%Q.

Lemma counts_row mm l : length (em_succ mm) = 5 -> length (em_fail mm) = 5 ->
  (forall s, s < 5 -> nth s (em_succ mm) 0 = wins s l /\ nth s (em_fail mm) 0 + wins s l = uses s l) ->
  let sk := map2 (fun a b => (qnat a / qnat (if a + b =? 0 then 1 else a + b) + (1#100))%Q) (em_succ mm) (em_fail mm) in
  row_is (map (fun q => (q / qsum sk)%Q) sk) (fun s => share s l).
Proof.
  intros L1 L2 H. cbv zeta. destruct (list5 _ L1) as (a0 & a1 & a2 & a3 & a4 & Ea). destruct (list5 _ L2) as (b0 & b1 & b2 & b3 & b4 & Eb).
  rewrite Ea, Eb in *. clear Ea Eb L1 L2 mm.
  assert (K : forall s a b, a = wins s l /\ b + wins s l = uses s l -> (qnat a / qnat (if a + b =? 0 then 1 else a + b) + (1#100) == credit s l)%Q).
  { intros s a b (-> & U). unfold credit. replace (if _ =? 0 then 1 else _) with (max 1 (uses s l)); [reflexivity|].
    destruct (wins s l + b =? 0) eqn:E; [apply Nat.eqb_eq in E|apply Nat.eqb_neq in E]; lia. }
  pose proof (K 0 a0 b0 (H 0 ltac:(lia))) as K0. pose proof (K 1 a1 b1 (H 1 ltac:(lia))) as K1. pose proof (K 2 a2 b2 (H 2 ltac:(lia))) as K2.
  pose proof (K 3 a3 b3 (H 3 ltac:(lia))) as K3. pose proof (K 4 a4 b4 (H 4 ltac:(lia))) as K4. clear K H.
  cbn [map2 map qsum fold_left].
  set (c0 := (qnat a0 / _ + _)%Q) in *. set (c1 := (qnat a1 / _ + _)%Q) in *. set (c2 := (qnat a2 / _ + _)%Q) in *. set (c3 := (qnat a3 / _ + _)%Q) in *. set (c4 := (qnat a4 / _ + _)%Q) in *.
  assert (S : (0 + c0 + c1 + c2 + c3 + c4 == credit 0 l + credit 1 l + credit 2 l + credit 3 l + credit 4 l)%Q) by (rewrite K0, K1, K2, K3, K4; ring).
  split; [reflexivity|]. intros s Hs. unfold qsum. cbn [fold_left]. unfold share. 
  do 5 (destruct s as [|s]; [cbn [nth]; rewrite S; try rewrite K0; try rewrite K1; try rewrite K2; try rewrite K3; try rewrite K4; reflexivity|]). lia.
Qed.

Lemma cumsum_ok pk : length pk = 5 -> forall s, s <= 5 -> (nth s (0%Q :: acc_from Qplus 0 pk) 0 == upto s pk)%Q.
Proof.
  intros L. destruct (list5 _ L) as (a & b & c & d & e & ->). intros s Hs.
  do 6 (destruct s as [|s]; [cbn [nth acc_from upto]; ring|]). lia.
Qed.

Lemma bump_len l s : length (bump l s) = length l.
Proof. apply set_len. Qed.
Lemma bump_nth l s t : s < length l -> nth t (bump l s) 0 = (if t =? s then 1 else 0) + nth t l 0.
Proof.
  intros H. unfold bump. assert (K : forall v, nth t (set_nth l s v) 0 = if t =? s then v else nth t l 0).
  { intros v. revert s t H. induction l as [|a l IH]; intros [|s] [|t] H; simpl in *; try lia; auto. apply IH. lia. }
  rewrite K. destruct (t =? s) eqn:E; auto. apply Nat.eqb_eq in E. subst. auto.
Qed.

Lemma during_app {A} a b (l : list (list A)) r : b <= length l -> during a b (l ++ r) = during a b l.
Proof.
  intros H. unfold during. f_equal. destruct (Nat.le_gt_cases b a) as [L|L]; [replace (b - a) with 0 by lia; auto|].
  rewrite skipn_app_le by lia. rewrite firstn_app_le; auto. rewrite skipn_length. lia.
Qed.
Lemma during_snoc {A} a (l : list (list A)) x : a <= length l -> during a (S (length l)) (l ++ [x]) = during a (length l) l ++ x.
Proof.
  intros H. unfold during. rewrite skipn_app_le by auto. rewrite (firstn_all2 (skipn a l ++ [x])) by (rewrite app_length, skipn_length; cbn [length]; lia).
  rewrite (firstn_all2 (skipn a l)) by (rewrite skipn_length; lia).
  rewrite concat_app. simpl. rewrite app_nil_r. auto.
Qed.
Lemma during_nil {A} a (l : list (list A)) : during a a l = [].
Proof. unfold during. rewrite Nat.sub_diag. auto. Qed.

Lemma period_here lp k : lp <> 0 -> k mod lp = 0 -> period_end lp k = k.
Proof. intros H E. unfold period_end. pose proof (Nat.div_mod k lp H). lia. Qed.
Lemma period_prev lp k : lp <> 0 -> k <> 0 -> k mod lp = 0 -> period_end lp (k - 1) = k - lp.
Proof.
  intros H K E. unfold period_end. pose proof (Nat.div_mod k lp H) as D. rewrite E, Nat.add_0_r in D. set (q := k / lp) in *.
  assert (q <> 0) by nia. assert ((k - 1) / lp = q - 1) as ->; [|nia].
  symmetry. apply (Nat.div_unique (k - 1) lp (q - 1) (lp - 1)); nia.
Qed.
Lemma period_same lp k : lp <> 0 -> k <> 0 -> k mod lp <> 0 -> period_end lp (k - 1) = period_end lp k.
Proof.
  intros H K E. unfold period_end. f_equal. symmetry. pose proof (Nat.div_mod k lp H) as D. pose proof (Nat.mod_upper_bound k lp H).
  apply (Nat.div_unique (k - 1) lp (k / lp) (k mod lp - 1)); lia.
Qed.
Lemma period_le lp k : lp <> 0 -> period_end lp k <= k.
Proof. intros H. unfold period_end. apply Nat.mul_div_le; auto. Qed.

Section R.
Context (expf : Q -> Q) (m : mode) (fit : list Q -> Q) (ds : list dimn) (mt : imethod).
Context (W : wf_dims ds) (DO : discrete_ok mt ds) (g1 g2 : nat) (G2 : 1 <= g2).
Local Notation n := (g1 + g2).
Local Notation part_ok := (part_ok ds).
Local Notation score := (pt_score m fit ds).

Lemma upd2_counts u i s u' : ep_upd2 m fit ds u i s = Some u' -> s < length (eu_succ u) -> s < length (eu_fail u) ->
  exists b p, nth_error (eu_sw u) i = Some p /\ b = Qltb (score (q_x p)) (q_pv p) /\ eu_ev u' = eu_ev u ++ [(i, s, b)] /\
  length (eu_succ u') = length (eu_succ u) /\ length (eu_fail u') = length (eu_fail u) /\
  forall t, nth t (eu_succ u') 0 = nth t (eu_succ u) 0 + wins t [(i, s, b)] /\
            nth t (eu_fail u') 0 + wins t [(i, s, b)] = nth t (eu_fail u) 0 + uses t [(i, s, b)].
Proof.
  unfold ep_upd2. intros H L1 L2. apply bind_Some in H. destruct H as (p & Ep & H). cbv zeta in H.
  exists (Qltb (score (q_x p)) (q_pv p)), p. split; auto. split; auto.
  destruct (Qltb (score (q_x p)) (q_pv p)) eqn:E.
  - destruct (Qltb (score (q_x p)) (eu_gv u)); inversion H; subst u'; cbn [eu_ev eu_succ eu_fail]; rewrite bump_len;
      do 3 (split; [auto|]); intros t; rewrite bump_nth by auto; unfold wins, uses; cbn [filter fst snd]; rewrite (Nat.eqb_sym s t);
      destruct (t =? s); simpl; lia.
  - destruct (Qltb (q_pv p) (eu_gv u)); inversion H; subst u'; cbn [eu_ev eu_succ eu_fail]; rewrite bump_len;
      do 3 (split; [auto|]); intros t; rewrite bump_nth by auto; unfold wins, uses; cbn [filter fst snd]; rewrite (Nat.eqb_sym s t);
      destruct (t =? s); simpl; lia.
Qed.

Lemma loop2_counts l : forall u u', ep_loop2 m fit ds u l = Some u' -> length (eu_succ u) = 5 -> length (eu_fail u) = 5 ->
  Forall (fun e => snd e < 5) l -> NoDup (map fst l) ->
  exists evs, eu_ev u' = eu_ev u ++ evs /\ map fst evs = l /\ length (eu_succ u') = 5 /\ length (eu_fail u') = 5 /\
  (forall t, nth t (eu_succ u') 0 = nth t (eu_succ u) 0 + wins t evs /\
            nth t (eu_fail u') 0 + wins t evs = nth t (eu_fail u) 0 + uses t evs) /\
  (forall i s b, In (i, s, b) evs -> exists p, nth_error (eu_sw u) i = Some p /\ b = Qltb (score (q_x p)) (q_pv p)).
Proof.
  induction l as [|[i s] l IH]; simpl; intros u u' H L1 L2 F ND.
  - inversion H; subst. exists []. rewrite app_nil_r. split; auto. split; auto. split; auto. split; auto. split; [intros; unfold wins, uses; simpl; lia|]. simpl; tauto.
  - apply bind_Some in H. destruct H as (u1 & E & H). inversion F as [|? ? F1 F2]; subst. inversion ND as [|? ? N1 N2]; subst. simpl in F1.
    pose proof (upd2_step _ _ _ _ _ _ _ E) as (p0 & p1 & _ & _ & Es & _).
    apply upd2_counts in E; try lia. destruct E as (b & p & Ep & Eb & Ev & La & Lb & C).
    apply IH in H; auto; try lia. destruct H as (evs & E1 & E2 & E3 & E4 & E5 & E6). exists ((i, s, b) :: evs).
    rewrite E1, Ev, <- app_assoc. simpl. split; auto. split; [congruence|]. split; auto. split; auto. split.
    + intros t. destruct (C t) as (C1 & C2). destruct (E5 t) as (D1 & D2). change ((i, s, b) :: evs) with ([(i, s, b)] ++ evs). rewrite wins_app, uses_app. lia.
    + intros i' s' b' [X|X]; [inversion X; subst; eauto|]. destruct (E6 _ _ _ X) as (q & Eq & Hq). exists q. split; auto.
      rewrite Es, nth_set_neq in Eq; auto. intros ->. apply N1. rewrite <- E2, map_map. apply in_map_iff. eexists. split; [|exact X]. reflexivity.
Qed.

(** The memory after the refresh of generation [k]. *)
Lemma refresh_ok k flag mem mm fl : ep_refresh k flag mem = Some (mm, fl) -> (forall m0, mem = Some m0 -> mem_ok m0) -> mem_ok mm.
Proof.
  unfold ep_refresh. intros H K. destruct (k <=? 1).
  - inversion H; subst. split; [reflexivity|]. split; [reflexivity|]. split; [reflexivity|]. split; [reflexivity|]. cbn [em_rk em_pk]. intros s Hs.
    do 6 (destruct s as [|s]; [vm_compute; reflexivity|]). lia.
  - apply bind_Some in H. destruct H as (m0 & E & H). specialize (K m0 E). destruct flag.
    + cbv zeta in H. inversion H; subst mm fl; clear H. destruct K as (K1 & K2 & K3 & K4 & K5).
      set (sk := map2 _ _ _). assert (Ls : length sk = 5).
      { unfold sk. destruct (list5 _ K3) as (? & ? & ? & ? & ? & ->). destruct (list5 _ K4) as (? & ? & ? & ? & ? & ->). reflexivity. }
      split; [cbn; rewrite map_length; auto|]. split; [cbn; rewrite acc_from_length, map_length; lia|]. split; [reflexivity|]. split; [reflexivity|].
      cbn [em_rk em_pk]. apply cumsum_ok. rewrite map_length; auto.
    + inversion H; subst. auto.
Qed.

(** The window of events the memory counts, in the state before generation [k]. *)
Definition window (lp k : nat) : nat := if k =? 1 then 0 else max 1 (period_end lp (k - 1)).

Definition row_spec (lp : nat) (evs : list (list event)) (k : nat) (row : list Q) : Prop :=
  row_is row (fun s => if 2 <=? period_end lp k then share s (during (max 1 (period_end lp k - lp)) (period_end lp k) evs) else (1#5)%Q).

Definition early (par : bool) (ngen j : nat) : bool := par || (10 * (j + 1) <=? 9 * (ngen + 1)).

Definition er_inv (par : bool) (lp ngen : nat) (drs : nat -> nat -> edraw) (k : nat) (st : ep_state) : Prop :=
  length (ep_evs st) = k /\ length (ep_rates st) = k /\ ep_fc st = (if par then 0 else n * (k + 1)) /\
  (k = 0 -> ep_mem st = None /\ ep_flag st = false) /\
  (k <> 0 -> ep_flag st = (k mod lp =? 0) /\ exists mm, ep_mem st = Some mm /\ mem_ok mm /\
     (forall s, s < 5 -> nth s (em_succ mm) 0 = wins s (during (window lp k) k (ep_evs st)) /\
        nth s (em_fail mm) 0 + wins s (during (window lp k) k (ep_evs st)) = uses s (during (window lp k) k (ep_evs st))) /\
     nth_error (ep_rates st) (k - 1) = Some (em_pk mm)) /\
  (forall j row, nth_error (ep_rates st) j = Some row -> row_spec lp (ep_evs st) j row) /\
  (forall j row evs, nth_error (ep_rates st) j = Some row -> nth_error (ep_evs st) j = Some evs ->
     map (fun e => fst (fst e)) evs = (if early par ngen j then seq g1 g2 else seq 0 n) /\
     forall i s b, In (i, s, b) evs -> s < 5 /\ (upto s row <= ed_prob (drs j i))%Q /\ (ed_prob (drs j i) < upto (S s) row)%Q /\
       (b = true <-> improves m fit n (ep_log st) j i)).

(** What a phase leaves, in terms of events. *)
Definition phase_ev (k : nat) (drs : nat -> edraw) (st : ep_state) (mm' : option emem) (fl : bool) (u : eust) (who : list nat) : Prop :=
  exists mm m2, ep_refresh k (ep_flag st) (ep_mem st) = Some (mm, fl) /\ mm' = Some m2 /\ em_pk m2 = em_pk mm /\ em_rk m2 = em_rk mm /\
  length (em_succ m2) = 5 /\ length (em_fail m2) = 5 /\ map (fun e => fst (fst e)) (eu_ev u) = who /\
  (forall t, nth t (em_succ m2) 0 = nth t (em_succ mm) 0 + wins t (eu_ev u) /\
            nth t (em_fail m2) 0 + wins t (eu_ev u) = nth t (em_fail mm) 0 + uses t (eu_ev u)) /\
  (forall i s b, In (i, s, b) (eu_ev u) -> ep_pick 0 (em_rk mm) (ed_prob (drs i)) = Some s /\ s < 5 /\
     exists p0 p, nth_error (ep_sw st) i = Some p0 /\ q_pv p = q_pv p0 /\ feasible ds (q_x p) /\ b = Qltb (score (q_x p)) (q_pv p) /\
       nth_error (map q_x (eu_sw u)) i = Some (q_x p)).

Lemma set_same {A} (l : list A) i x : nth_error l i = Some x -> set_nth l i x = l.
Proof. revert i. induction l as [|a l IH]; intros [|i] H; simpl in *; try discriminate; [congruence|]. f_equal. auto. Qed.
Lemma map_set {A B} (f : A -> B) l i x : map f (set_nth l i x) = set_nth (map f l) i (f x).
Proof. revert i. induction l as [|a l IH]; intros [|i]; simpl; auto. f_equal. auto. Qed.
Lemma usteps_x u l u' : usteps m fit ds u l u' -> map q_x (eu_sw u') = map q_x (eu_sw u).
Proof.
  induction 1 as [|u i u1 l u2 H _ IH]; auto. rewrite IH. destruct H as (p & p' & Ep & (B & _) & Es & _). rewrite Es, map_set, B.
  apply set_same. rewrite nth_error_map, Ep. auto.
Qed.

Lemma combine_nth {A B} (l : list A) (r : list B) i : nth_error (combine l r) i = match nth_error l i, nth_error r i with Some a, Some b => Some (a, b) | _, _ => None end.
Proof. revert r i. induction l as [|a l IH]; intros [|b r] [|i]; simpl; auto. destruct (nth_error l i); auto. Qed.
Lemma nth_seq a c i : i < c -> nth_error (seq a c) i = Some (a + i).
Proof. revert a i. induction c; intros a [|i] H; simpl; try lia; [f_equal; lia|]. rewrite IHc by lia. f_equal. lia. Qed.
Lemma nth_skipn {A} (l : list A) a i : nth_error (skipn a l) i = nth_error l (a + i).
Proof. revert l. induction a; intros l; simpl; auto. destruct l; simpl; auto. destruct i; auto. Qed.
Lemma in_pairs {B} (l : list B) a i s : length l = n -> In (i, s) (skipn a (combine (seq 0 n) l)) -> nth_error l i = Some s /\ a <= i.
Proof.
  intros L H. apply In_nth_error in H. destruct H as (j & H). rewrite nth_skipn, combine_nth in H.
  destruct (Nat.lt_ge_cases (a + j) n) as [Hj|Hj].
  - rewrite nth_seq in H by auto. destruct (nth_error l (a + j)) eqn:E; [|discriminate]. inversion H; subst. split; [exact E|lia].
  - rewrite (proj2 (nth_error_None (seq 0 n) (a + j))) in H by (rewrite seq_length; auto). discriminate.
Qed.

Lemma exploit_ev ngen k gt drs st mm fl u : Forall part_ok (ep_sw st) -> length (ep_sw st) = n ->
  (forall m0, ep_mem st = Some m0 -> mem_ok m0) ->
  ep_exploit expf m fit ds mt g1 g2 ngen k gt drs st = Some (mm, fl, u) -> phase_ev k drs st mm fl u (seq 0 n).
Proof.
  intros P L K H. unfold ep_exploit in H. apply bind_Some in H. destruct H as ([m1 f1] & Er & H).
  apply bind_Some in H. destruct H as (mv & Em & H). apply bind_Some in H. destruct H as (u2 & Eu & H). inversion H; subst mm f1 u2; clear H.
  pose proof (refresh_ok _ _ _ _ _ Er K) as (K1 & K2 & K3 & K4 & K5).
  pose proof (len_traverse _ _ _ _ Em) as Lm.
  assert (R : forall i s, nth_error (map snd mv) i = Some s -> exists p q, nth_error (ep_sw st) i = Some p /\ nth_error (map fst mv) i = Some q /\ moved ds p q /\ ep_pick 0 (em_rk m1) (ed_prob (drs i)) = Some s /\ s < 5).
  { intros i s Hs. rewrite nth_error_map in Hs. destruct (nth_error mv i) as [[q s']|] eqn:E; [|discriminate]. inversion Hs; subst s'.
    destruct (nth_traverse _ _ _ _ _ Em E) as (p & Ep & Hp). exists p, q. split; auto. split; [rewrite nth_error_map, E; auto|].
    assert (Pp : part_ok p) by (rewrite Forall_forall in P; eapply P, nth_error_In; eauto).
    destruct (move2_ok expf ds mt W DO g1 g2 _ _ _ _ _ _ _ _ _ _ Pp Hp) as (M & Pk). split; auto. split; auto.
    apply pick_spec in Pk. destruct Pk as (t & -> & Ht & _). lia. }
  pose proof (loop2_steps _ _ _ _ _ _ Eu) as US. pose proof (usteps_x _ _ _ US) as UX. cbn [eu_sw] in UX.
  assert (MF : map fst (combine (seq 0 n) (map snd mv)) = seq 0 n) by (apply combine_fst; rewrite seq_length, map_length; lia).
  apply loop2_counts in Eu; auto.
  2:{ apply Forall_forall. intros [i s] Hin. change (combine (seq 0 n) (map snd mv)) with (skipn 0 (combine (seq 0 n) (map snd mv))) in Hin. apply in_pairs in Hin; [|rewrite map_length; lia].
      destruct (R i s (proj1 Hin)) as (? & ? & _ & _ & _ & _ & H5). auto. }
  2:{ rewrite MF. apply seq_NoDup. }
  destruct Eu as (evs & E1 & E2 & E3 & E4 & E5 & E6). cbn [eu_ev eu_succ eu_fail eu_sw] in *. simpl in E1. subst evs.
  exists m1. eexists. split; [exact Er|]. split; [reflexivity|]. cbn [em_pk em_rk em_succ em_fail]. do 4 (split; [auto|]).
  split; [rewrite <- map_map, E2; exact MF|]. split; auto.
  intros i s b Hin. assert (Hp : In (i, s) (skipn 0 (combine (seq 0 n) (map snd mv)))). { simpl. rewrite <- E2. apply in_map_iff. eexists. split; [|exact Hin]. reflexivity. }
  apply in_pairs in Hp; [|rewrite map_length; lia]. destruct (R i s (proj1 Hp)) as (p0 & q & A1 & A2 & A3 & A4 & A5). split; auto. split; auto.
  destruct (E6 i s b Hin) as (q' & Q1 & Q2). rewrite A2 in Q1. inversion Q1; subst q'. exists p0, q. destruct A3 as (M1 & M2 & M3 & _). split; auto. split; auto. split; [apply M1|]. split; auto.
  rewrite UX, nth_error_map, A2. auto.
Qed.

Lemma explore_ev ngen k gt drs st mm fl u : Forall part_ok (ep_sw st) -> length (ep_sw st) = n ->
  (forall m0, ep_mem st = Some m0 -> mem_ok m0) ->
  ep_explore expf m fit ds mt g1 g2 ngen k gt drs st = Some (mm, fl, u) -> phase_ev k drs st mm fl u (seq g1 g2).
Proof.
  intros P L K H. unfold ep_explore in H. apply bind_Some in H. destruct H as (sw1 & Es1 & H). apply bind_Some in H. destruct H as (u1 & Eu1 & H).
  replace (g2 =? 0) with false in H by (symmetry; apply Nat.eqb_neq; lia).
  apply bind_Some in H. destruct H as ([m1 f1] & Er & H).
  apply bind_Some in H. destruct H as (mv & Em & H). apply bind_Some in H. destruct H as (u2 & Eu & H). inversion H; subst mm f1 u2; clear H.
  pose proof (refresh_ok _ _ _ _ _ Er K) as (K1 & K2 & K3 & K4 & K5).
  pose proof (len_traverse _ _ _ _ Em) as Lm. pose proof (len_traverse _ _ _ _ Es1) as L1.
  assert (U1 : length (eu_sw u1) = n /\ forall i, g1 <= i -> nth_error (eu_sw u1) i = nth_error (ep_sw st) i).
  { apply loop1_steps in Eu1. assert (T : forall i, g1 <= i -> nth_error sw1 i = nth_error (ep_sw st) i).
    { intros i Hi. apply traverse_spec in Es1. destruct Es1 as (_ & Es1). destruct (nth_error (ep_sw st) i) as [p|] eqn:E.
      - destruct (Es1 i p E) as (b & Eb & Hb). cbn [plus] in Hb. replace (i <? g1) with false in Hb by (symmetry; apply Nat.ltb_ge; auto). congruence.
      - apply nth_error_None. apply nth_error_None in E. lia. }
    assert (T2 : forall l v v', usteps m fit ds v l v' -> (forall i, In i l -> i < g1) -> length (eu_sw v') = length (eu_sw v) /\ forall i, g1 <= i -> nth_error (eu_sw v') i = nth_error (eu_sw v) i).
    { clear. induction 1 as [|v i v1 l v2 Hs _ IH]; intros Hl; auto. destruct IH as (I1 & I2); [intros; apply Hl; right; auto|]. destruct Hs as (p & p' & _ & _ & Es & _).
      rewrite I1, Es, set_len. split; auto. intros j Hj. rewrite I2, Es, nth_set_neq; auto. specialize (Hl i (or_introl eq_refl)). lia. }
    destruct (T2 _ _ _ Eu1) as (A & B); [intros i Hi; apply in_seq in Hi; lia|]. cbn [eu_sw] in *. split; [lia|]. intros i Hi. rewrite B, T; auto. }
  destruct U1 as (LU & U1).
  assert (R : forall i s, g1 <= i -> nth_error (map snd mv) i = Some s -> exists p q, nth_error (ep_sw st) i = Some p /\ nth_error (map fst mv) i = Some q /\ moved ds p q /\ ep_pick 0 (em_rk m1) (ed_prob (drs i)) = Some s /\ s < 5).
  { intros i s Hi Hs. rewrite nth_error_map in Hs. destruct (nth_error mv i) as [[q s']|] eqn:E; [|discriminate]. inversion Hs; subst s'.
    destruct (nth_traverse _ _ _ _ _ Em E) as (p & Ep & Hp). replace (i <? g1) with false in Hp by (symmetry; apply Nat.ltb_ge; auto).
    rewrite U1 in Ep by auto. exists p, q. split; auto. split; [rewrite nth_error_map, E; auto|].
    assert (Pp : part_ok p) by (rewrite Forall_forall in P; eapply P, nth_error_In; eauto).
    destruct (move2_ok expf ds mt W DO g1 g2 _ _ _ _ _ _ _ _ _ _ Pp Hp) as (M & Pk). split; auto. split; auto.
    apply pick_spec in Pk. destruct Pk as (t & -> & Ht & _). lia. }
  pose proof (loop2_steps _ _ _ _ _ _ Eu) as US. pose proof (usteps_x _ _ _ US) as UX. cbn [eu_sw] in UX.
  assert (MF : map fst (skipn g1 (combine (seq 0 n) (map snd mv))) = seq g1 g2) by (rewrite (skip_seq g1 g2) by (rewrite map_length; lia); f_equal; lia).
  apply loop2_counts in Eu; auto.
  2:{ apply Forall_forall. intros [i s] Hin. apply in_pairs in Hin; [|rewrite map_length; lia].
      destruct (R i s (proj2 Hin) (proj1 Hin)) as (? & ? & _ & _ & _ & _ & H5). auto. }
  2:{ rewrite MF. apply seq_NoDup. }
  destruct Eu as (evs & E1 & E2 & E3 & E4 & E5 & E6). cbn [eu_ev eu_succ eu_fail eu_sw] in *. simpl in E1. subst evs.
  exists m1. eexists. split; [exact Er|]. split; [reflexivity|]. cbn [em_pk em_rk em_succ em_fail]. do 4 (split; [auto|]).
  split; [rewrite <- map_map, E2; exact MF|]. split; auto.
  intros i s b Hin. assert (Hp : In (i, s) (skipn g1 (combine (seq 0 n) (map snd mv)))). { rewrite <- E2. apply in_map_iff. eexists. split; [|exact Hin]. reflexivity. }
  apply in_pairs in Hp; [|rewrite map_length; lia]. destruct (R i s (proj2 Hp) (proj1 Hp)) as (p0 & q & A1 & A2 & A3 & A4 & A5). split; auto. split; auto.
  destruct (E6 i s b Hin) as (q' & Q1 & Q2). rewrite A2 in Q1. inversion Q1; subst q'. exists p0, q. destruct A3 as (M1 & M2 & M3 & _). split; auto. split; auto. split; [apply M1|]. split; auto.
  rewrite UX, nth_error_map, A2. auto.
Qed.

Lemma improves_app log r k i : n * S k + n <= length log -> i < n -> improves m fit n (log ++ r) k i <-> improves m fit n log k i.
Proof.
  intros H Hi. unfold improves. assert (N : forall b, b <= S k -> nth_error (log ++ r) (n * b + i) = nth_error log (n * b + i)) by (intros; apply nth_error_app1; nia).
  split; intros (x & Hx & Hz); exists x; (split; [rewrite N in *; auto|]); intros b z Hb Hz'; apply (Hz b z Hb); rewrite N in *; auto; lia.
Qed.

Lemma row_spec_app lp evs r k row : lp <> 0 -> k <= length evs -> row_spec lp (evs ++ r) k row <-> row_spec lp evs k row.
Proof.
  intros Hl H. unfold row_spec. rewrite during_app; [tauto|]. pose proof (period_le lp k Hl). lia.
Qed.

Lemma er_step VU par lp ngen drs k st st' : ep_inv m fit ds g1 g2 VU k st -> er_inv par lp ngen drs k st ->
  ep_gen expf m fit ds mt g1 g2 par lp ngen drs k st = Some st' -> er_inv par lp ngen drs (S k) st'.
Proof.
  intros (IA & IB & IC & ID & IF & _) (A & B & C & D & E & F & G) H. unfold ep_gen in H.
  apply bind_Some in H. destruct H as (gt & Egt & H). cbv zeta in H. apply bind_Some in H. destruct H as ([[mm fl] u] & Ep & H).
  assert (MK : forall m0, ep_mem st = Some m0 -> mem_ok m0).
  { intros m0 Hm. destruct (Nat.eq_dec k 0) as [->|Hk]; [destruct (D eq_refl); congruence|]. destruct (E Hk) as (_ & m1 & M1 & M2 & _). congruence. }
  assert (EQ : Qle_bool (qnat (ep_fc st)) ((9#10) * qnat (ngen * n + n)) = early par ngen k).
  { unfold early. rewrite C. destruct par.
    - simpl. apply Qle_bool_iff. unfold qnat. change (inject_Z (Z.of_nat 0)) with 0%Q. assert (0 <= inject_Z (Z.of_nat (ngen * n + n)))%Q by (change 0%Q with (inject_Z 0); rewrite <- Zle_Qle; lia). lra.
    - cbn [orb]. unfold qnat. destruct (10 * (k + 1) <=? 9 * (ngen + 1)) eqn:El.
      + apply Nat.leb_le in El. apply Qle_bool_iff. assert (X : (inject_Z (10 * Z.of_nat (n * (k + 1))) <= inject_Z (9 * Z.of_nat (ngen * n + n)))%Q) by (assert (10 * (n * (k + 1)) <= 9 * (ngen * n + n)) by nia; rewrite <- Zle_Qle; lia).
        rewrite !inject_Z_mult in X. change (inject_Z 10) with 10%Q in X. change (inject_Z 9) with 9%Q in X. lra.
      + apply Nat.leb_gt in El. apply not_true_is_false. intros Z. apply Qle_bool_iff in Z.
        assert (X : (inject_Z (9 * Z.of_nat (ngen * n + n)) < inject_Z (10 * Z.of_nat (n * (k + 1))))%Q) by (assert (0 < n) by lia; assert (9 * (ngen * n + n) < 10 * (n * (k + 1))) by nia; rewrite <- Zlt_Qlt; lia).
        rewrite !inject_Z_mult in X. change (inject_Z 10) with 10%Q in X. change (inject_Z 9) with 9%Q in X. lra. }
  assert (PE : phase_ev k (drs k) st mm fl u (if early par ngen k then seq g1 g2 else seq 0 n)).
  { rewrite EQ in Ep. destruct (early par ngen k); [eapply explore_ev; eauto|eapply exploit_ev; eauto]. }
  assert (LN : length (eu_sw u) = n).
  { destruct PE as (? & ? & _). clear - Ep IA IB W DO G2 EQ. rewrite EQ in Ep. destruct (early par ngen k).
    - unfold ep_explore in Ep. apply bind_Some in Ep. destruct Ep as (sw1 & E1 & Ep). apply bind_Some in Ep. destruct Ep as (u1 & Eu1 & Ep).
      replace (g2 =? 0) with false in Ep by (symmetry; apply Nat.eqb_neq; lia). apply bind_Some in Ep. destruct Ep as ([m1 f1] & Er & Ep).
      apply bind_Some in Ep. destruct Ep as (mv & Em & Ep). apply bind_Some in Ep. destruct Ep as (u2 & Eu & Ep). inversion Ep; subst.
      apply loop2_steps, usteps_x in Eu. apply loop1_steps, usteps_x in Eu1. apply len_traverse in Em. apply len_traverse in E1.
      apply (f_equal (@length _)) in Eu. apply (f_equal (@length _)) in Eu1. cbn [eu_sw] in *. rewrite !map_length in *. lia.
    - unfold ep_exploit in Ep. apply bind_Some in Ep. destruct Ep as ([m1 f1] & Er & Ep).
      apply bind_Some in Ep. destruct Ep as (mv & Em & Ep). apply bind_Some in Ep. destruct Ep as (u2 & Eu & Ep). inversion Ep; subst.
      apply loop2_steps, usteps_x in Eu. apply len_traverse in Em.
      apply (f_equal (@length _)) in Eu. cbn [eu_sw] in *. rewrite !map_length in *. lia. }
  clear Ep EQ. destruct (lp =? 0) eqn:El; [discriminate|]. apply Nat.eqb_neq in El. apply bind_Some in H. destruct H as (pk & Epk & H).
  apply bind_Some in H. destruct H as (gx2 & _ & H). apply bind_Some in H. destruct H as ([ix lo] & _ & H). inversion H; subst st'; clear H.
  destruct PE as (m1 & m2 & Er & -> & P1 & P2 & P3 & P4 & P5 & P6 & P7). cbn [bind] in Epk. inversion Epk; subst pk; clear Epk.
  pose proof (refresh_ok _ _ _ _ _ Er MK) as M1.
  (* probabilities of this generation *)
  assert (CUR : row_spec lp (ep_evs st) k (em_pk m1) /\
     forall s, s < 5 -> nth s (em_succ m1) 0 = wins s (during (window lp (S k)) k (ep_evs st)) /\
        nth s (em_fail m1) 0 + wins s (during (window lp (S k)) k (ep_evs st)) = uses s (during (window lp (S k)) k (ep_evs st))).
  { assert (Z5 : forall s, s < 5 -> nth s [0; 0; 0; 0; 0] 0 = 0) by (intros s Hs; do 5 (destruct s as [|s]; [reflexivity|]); lia).
    unfold ep_refresh in Er. destruct (k <=? 1) eqn:Ek.
    - apply Nat.leb_le in Ek. inversion Er; subst m1 fl. cbn [em_pk em_succ em_fail]. split.
      + split; [reflexivity|]. intros s Hs. assert (X : 2 <=? period_end lp k = false) by (apply Nat.leb_gt; pose proof (period_le lp k El); lia). rewrite X.
        do 5 (destruct s as [|s]; [reflexivity|]). lia.
      + assert (X : window lp (S k) = k). { unfold window. destruct k as [|[|k]]; [reflexivity| |lia]. change (max 1 (period_end lp 1) = 1). pose proof (period_le lp 1 El). lia. }
        rewrite X, during_nil. intros s Hs. rewrite (Z5 s Hs). unfold wins, uses. simpl. lia.
    - apply Nat.leb_gt in Ek. destruct (E ltac:(lia)) as (Fl & m0 & Em0 & MO & CN & RT). rewrite Em0 in Er. cbn [bind] in Er. rewrite Fl in Er.
      destruct (k mod lp =? 0) eqn:Emod.
      + apply Nat.eqb_eq in Emod. cbv zeta in Er. inversion Er; subst m1 fl. cbn [em_pk em_succ em_fail].
        pose proof (period_here lp k El Emod) as PH. pose proof (period_prev lp k El ltac:(lia) Emod) as PP. split.
        * destruct MO as (_ & _ & Q1 & Q2 & _). pose proof (counts_row m0 (during (window lp k) k (ep_evs st)) Q1 Q2 CN) as CR. cbv zeta in CR.
          unfold row_spec. destruct CR as (R1 & R2). split; auto. intros s Hs. rewrite (R2 s Hs). rewrite PH. replace (2 <=? k) with true by (symmetry; apply Nat.leb_le; lia).
          replace (window lp k) with (max 1 (k - lp)); [reflexivity|]. unfold window. replace (k =? 1) with false by (symmetry; apply Nat.eqb_neq; lia). rewrite PP. auto.
        * assert (X : window lp (S k) = k). { unfold window. replace (S k =? 1) with false by (symmetry; apply Nat.eqb_neq; lia). replace (S k - 1) with k by lia. rewrite PH. lia. }
          rewrite X, during_nil. intros s Hs. rewrite (Z5 s Hs). unfold wins, uses. simpl. lia.
      + apply Nat.eqb_neq in Emod. inversion Er; subst m1 fl. pose proof (period_same lp k El ltac:(lia) Emod) as PS. split.
        * pose proof (F (k - 1) _ RT) as RS. unfold row_spec in *. rewrite PS in RS. auto.
        * assert (X : window lp (S k) = window lp k).
          { unfold window. replace (S k =? 1) with false by (symmetry; apply Nat.eqb_neq; lia). replace (k =? 1) with false by (symmetry; apply Nat.eqb_neq; lia).
            replace (S k - 1) with k by lia. rewrite PS. auto. }
          rewrite X. auto. }
  destruct CUR as (CR & CC).
  assert (FL : (if (k + 1) mod lp =? 0 then true else fl) = (S k mod lp =? 0)).
  { replace (k + 1) with (S k) by lia. destruct (S k mod lp =? 0) eqn:Em; auto. apply Nat.eqb_neq in Em.
    unfold ep_refresh in Er. destruct (k <=? 1) eqn:Ek.
    - apply Nat.leb_le in Ek. inversion Er; subst fl. destruct k as [|[|k]]; try lia; [destruct (D eq_refl); auto|].
      destruct (E ltac:(lia)) as (-> & _). apply Nat.eqb_neq. intros X. apply Em. destruct lp as [|[|lp]]; [lia|apply Nat.mod_1_r|]. rewrite Nat.mod_small in X by lia. lia.
    - apply bind_Some in Er. destruct Er as (m0 & _ & Er). destruct (ep_flag st); inversion Er; auto. }
  unfold er_inv. cbn [ep_evs ep_rates ep_fc ep_mem ep_flag ep_log].
  split; [rewrite app_length; simpl; lia|]. split; [rewrite app_length; simpl; lia|]. split; [rewrite C; destruct par; [auto|nia]|]. split; [lia|].
  assert (WL : window lp (S k) <= k). { unfold window. destruct (S k =? 1) eqn:X; [lia|]. apply Nat.eqb_neq in X. replace (S k - 1) with k by lia. pose proof (period_le lp k El). lia. }
  split.
  { intros _. split; [auto|]. exists m2. split; auto. split.
    { destruct M1 as (Q1 & Q2 & Q3 & Q4 & Q5). unfold mem_ok. rewrite P1, P2. auto. }
    split; [|replace (S k - 1) with k by lia; rewrite nth_error_app2, B, Nat.sub_diag by lia; reflexivity].
    intros s Hs. destruct (P6 s) as (X1 & X2). destruct (CC s Hs) as (Y1 & Y2).
    replace (during (window lp (S k)) (S k) (ep_evs st ++ [eu_ev u])) with (during (window lp (S k)) k (ep_evs st) ++ eu_ev u) by (rewrite <- A at 2 4; rewrite during_snoc; auto; lia).
    rewrite wins_app, uses_app. lia. }
  split.
  { intros j row Hj. destruct (Nat.lt_ge_cases j k) as [Lj|Lj].
    - rewrite nth_error_app1 in Hj by lia. apply (proj2 (row_spec_app lp (ep_evs st) _ j _ El ltac:(unfold event in *; lia))); auto.
    - assert (j < length (ep_rates st ++ [em_pk m2])) by (apply nth_error_Some; congruence). rewrite app_length in *. simpl in *. assert (j = k) by lia. subst j.
      rewrite nth_error_app2, B, Nat.sub_diag in Hj by lia. inversion Hj; subst row. rewrite P1. apply (proj2 (row_spec_app lp (ep_evs st) _ k _ El ltac:(unfold event in *; lia))); auto. }
  intros j row evs Hj He. destruct (Nat.lt_ge_cases j k) as [Lj|Lj].
  - rewrite nth_error_app1 in Hj by lia. rewrite nth_error_app1 in He by lia. destruct (G j row evs Hj He) as (W1 & W2). split; auto.
    intros i s b Hin. destruct (W2 i s b Hin) as (V1 & V2 & V3 & V4). do 3 (split; [auto|]). rewrite V4.
    assert (Hi : i < n). { assert (Y : In i (map (fun e => fst (fst e)) evs)) by (apply in_map_iff; eexists; split; [|exact Hin]; reflexivity). rewrite W1 in Y. destruct (early par ngen j); apply in_seq in Y; lia. }
    symmetry. apply improves_app; auto. rewrite ID. nia.
  - assert (j < length (ep_rates st ++ [em_pk m2])) by (apply nth_error_Some; congruence). rewrite app_length in *. simpl in *. assert (j = k) by lia. subst j.
    rewrite nth_error_app2, B, Nat.sub_diag in Hj by lia. inversion Hj; subst row. rewrite nth_error_app2, A, Nat.sub_diag in He by lia. inversion He; subst evs. clear Hj He.
    split; auto. intros i s b Hin. destruct (P7 i s b Hin) as (V1 & V2 & (p0 & p & N1 & N2 & N3 & N4 & N5)).
    assert (Hi : i < n) by (rewrite <- IB; apply nth_error_Some; congruence).
    destruct M1 as (Q1 & Q2 & Q3 & Q4 & Q5). apply pick_spec in V1. destruct V1 as (t & -> & T1 & T2 & T3). cbn [plus] in *. rewrite P1.
    rewrite Q5 in T2 by lia. rewrite Q5 in T3 by lia. do 3 (split; [auto|]).
    destruct (IF i p0 N1) as (PB1 & PB2 & PB3).
    assert (NX : nth_error (ep_log st ++ map (pt_arg ds) (map q_x (eu_sw u))) (n * S k + i) = Some (q_x p)).
    { rewrite nth_error_app2 by (rewrite ID; nia). rewrite ID. replace (n * S k + i - n * (k + 1)) with i by nia. rewrite nth_error_map, N5. simpl. rewrite pt_arg_feasible; auto. }
    assert (NO : forall c, c <= k -> nth_error (ep_log st ++ map (pt_arg ds) (map q_x (eu_sw u))) (n * c + i) = nth_error (ep_log st) (n * c + i)).
    { intros c Hc. apply nth_error_app1. rewrite ID. nia. }
    rewrite N4, pt_score_feasible, N2 by auto. unfold improves. split.
    + intros Hq. qprop. exists (q_x p). split; auto. intros c z Hc Hz. rewrite NO in Hz by auto. assert (VZ : visited n i (ep_log st) z) by (exists c; auto). specialize (PB3 z VZ). lra.
    + intros (x & Hx & Hz). rewrite NX in Hx. inversion Hx; subst x. destruct PB1 as (c & Hc). apply Qltb_lt. rewrite PB2.
      assert (n * c + i < length (ep_log st)) by (apply nth_error_Some; congruence). assert (c <= k) by nia. apply (Hz c); auto. rewrite NO; auto.
Qed.
End R.
