(** Binomial coefficients, the mean of the binomial law, migration matrix, strengths. *)
From Coq Require Import List Arith ZArith QArith Bool Lia Lqa Field.
From Verif Require Import Base BaseFacts Space_Model Opt_Model Opt_Facts AEO_Model AEO_Spec.
Import ListNotations.
Open Scope nat_scope.

Lemma choose_0 n : choose n 0 = 1. Proof. destruct n; reflexivity. Qed.
Lemma choose_S n k : choose (S n) (S k) = choose n k + choose n (S k). Proof. reflexivity. Qed.
Lemma choose_big n : forall k, n < k -> choose n k = 0.
Proof. induction n as [|n IH]; intros [|k] H; try lia; cbn; auto. rewrite !IH by lia. reflexivity. Qed.
Lemma choose_n n : choose n n = 1.
Proof. induction n as [|n IH]; auto. rewrite choose_S, IH, choose_big by lia. reflexivity. Qed.
Lemma choose_1 n : choose n 1 = n.
Proof. induction n as [|n IH]; auto. rewrite choose_S, IH, choose_0. reflexivity. Qed.
Lemma choose_absorb n : forall r, choose n (S r) * S r = choose n r * (n - r).
Proof.
  induction n as [|n IH]; intros r; [cbn; destruct r; reflexivity|].
  rewrite choose_S. destruct (Nat.lt_ge_cases n r) as [H|H].
  { rewrite !choose_big by lia. replace (S n - r) with 0 by lia. lia. }
  destruct r as [|r].
  - rewrite !choose_0, choose_1. lia.
  - pose proof (IH r) as E1. pose proof (IH (S r)) as E2. rewrite choose_S. replace (S n - S r) with (n - r) by lia.
    replace (n - r) with (S (n - S r)) in * by lia. nia.
Qed.
Lemma choose_absorb' n r : choose (S n) (S r) * S r = choose n r * S n.
Proof.
  rewrite choose_S. destruct (Nat.lt_ge_cases n r) as [H|H]; [rewrite !choose_big by lia; lia|].
  pose proof (choose_absorb n r) as E. nia.
Qed.
Lemma choose_sym n : forall k, k <= n -> choose n k = choose n (n - k).
Proof.
  induction n as [|n IH]; intros k H; [replace k with 0 by lia; reflexivity|].
  destruct k as [|k]; [rewrite choose_0, Nat.sub_0_r, choose_n; reflexivity|].
  destruct (Nat.eq_dec k n) as [->|Hk]; [rewrite Nat.sub_diag, choose_0; apply choose_n|].
  replace (S n - S k) with (S (n - S k)) by lia. rewrite !choose_S, (IH k), (IH (S k)) by lia.
  replace (S (n - S k)) with (n - k) by lia. lia.
Qed.

Fixpoint fall (n r : nat) : nat := match r with O => 1 | S r' => fall n r' * (n - r') end.
Lemma fold_mul_app a b : forall z, fold_left Nat.mul (a ++ b) z = fold_left Nat.mul b (fold_left Nat.mul a z).
Proof. intros. apply fold_left_app. Qed.
Lemma numer_fall n r : fold_left Nat.mul (map (fun k => n - k) (seq 0 r)) 1 = fall n r.
Proof. induction r as [|r IH]; auto. rewrite seq_S, map_app, fold_left_app, IH. reflexivity. Qed.
Lemma denom_fact r : fold_left Nat.mul (seq 1 r) 1 = fact r.
Proof. induction r as [|r IH]; auto. rewrite seq_S, fold_left_app, IH. cbn -[fact Nat.mul]. rewrite Nat.mul_comm. reflexivity. Qed.
Lemma fall_choose n r : fall n r = choose n r * fact r.
Proof.
  induction r as [|r IH]; [rewrite choose_0; reflexivity|]. cbn [fall]. rewrite IH.
  change (fact (S r)) with (S r * fact r). pose proof (choose_absorb n r). nia.
Qed.
Lemma ncr_choose n k : k <= n -> ncr n k = choose n k.
Proof.
  intros H. unfold ncr. rewrite numer_fall, denom_fact, fall_choose, Nat.div_mul by apply fact_neq_0.
  destruct (Nat.min_spec k (n - k)) as [[_ ->]|[_ ->]]; auto. symmetry. apply choose_sym, H.
Qed.

Open Scope Q_scope.
Lemma qsum_app a b : qsum (a ++ b) == qsum a + qsum b.
Proof. unfold qsum. induction a as [|x a IH]; cbn; [ring|]. rewrite IH. ring. Qed.
Lemma qsum_ext {A} (f g : A -> Q) l : (forall x, In x l -> f x == g x) -> qsum (map f l) == qsum (map g l).
Proof.
  unfold qsum. induction l as [|x l IH]; cbn; intros H; [reflexivity|]. rewrite (H x) by auto. rewrite IH; [reflexivity|]. auto.
Qed.
Lemma qsum_mul {A} (f : A -> Q) c l : qsum (map (fun x => c * f x) l) == c * qsum (map f l).
Proof. unfold qsum. induction l as [|x l IH]; cbn; [ring|]. rewrite IH. ring. Qed.
Lemma qsum_plus {A} (f g : A -> Q) l : qsum (map (fun x => f x + g x) l) == qsum (map f l) + qsum (map g l).
Proof. unfold qsum. induction l as [|x l IH]; cbn; [ring|]. rewrite IH. ring. Qed.
Lemma qsum_div l s : ~ s == 0 -> qsum (map (fun x => x / s) l) == qsum l / s.
Proof. intros H. unfold qsum. induction l as [|x l IH]; cbn; [field; auto|]. rewrite IH. field. auto. Qed.
Lemma qsum_nonneg l : Forall (fun x => 0 <= x) l -> 0 <= qsum l.
Proof. unfold qsum. induction 1; cbn; lra. Qed.
Lemma qsum_ge l x : Forall (fun x => 0 <= x) l -> In x l -> x <= qsum l.
Proof.
  induction 1 as [|y l Hy Hl IH]; intros []; cbn; [subst; pose proof (qsum_nonneg _ Hl); unfold qsum in *; lra|].
  specialize (IH H). unfold qsum in *. lra.
Qed.

Lemma qn_S n : qn (S n) == qn n + 1.
Proof. unfold qn. rewrite Nat2Z.inj_succ. unfold Z.succ. rewrite inject_Z_plus. reflexivity. Qed.
Lemma qn_plus a b : qn (a + b) == qn a + qn b.
Proof. unfold qn. rewrite Nat2Z.inj_add, inject_Z_plus. reflexivity. Qed.
Lemma qn_mul a b : qn (a * b) == qn a * qn b.
Proof. unfold qn. rewrite Nat2Z.inj_mul, inject_Z_mult. reflexivity. Qed.
Lemma qn_nonneg n : 0 <= qn n.
Proof. unfold qn. change 0 with (inject_Z 0). rewrite <- Zle_Qle. lia. Qed.
Lemma qn_pos n : (0 < n)%nat -> 0 < qn n.
Proof. intros H. unfold qn. change 0 with (inject_Z 0). rewrite <- Zlt_Qlt. lia. Qed.

(** The binomial law has total mass 1 and mean n h. *)
Definition bterm (h : Q) (n k : nat) : Q := qn (choose n k) * qpow h k * qpow (1 - h) (n - k).
Lemma seq_shift_map {A} (f : nat -> A) n : map f (seq 0 (S n)) = f 0%nat :: map (fun k => f (S k)) (seq 0 n).
Proof. cbn [seq map]. f_equal. rewrite <- seq_shift, map_map. reflexivity. Qed.
Lemma bsum_1 h n : qsum (map (bterm h n) (seq 0 (S n))) == 1.
Proof.
  induction n as [|n IH]; [unfold qsum, bterm; cbn [seq map fold_right choose qpow Nat.sub]; change (qn 1) with 1; ring|].
  assert (E : qsum (map (bterm h (S n)) (seq 0 (S (S n)))) ==
              h * qsum (map (bterm h n) (seq 0 (S n))) + (1 - h) * qsum (map (bterm h n) (seq 0 (S n)))).
  { rewrite seq_shift_map.
    assert (E1 : qsum (map (fun k => bterm h (S n) (S k)) (seq 0 (S n))) ==
                 h * qsum (map (bterm h n) (seq 0 (S n))) +
                 qsum (map (fun k => qn (choose n (S k)) * qpow h (S k) * qpow (1 - h) (n - k)) (seq 0 (S n)))).
    { rewrite <- qsum_mul, <- qsum_plus. apply qsum_ext. intros k _. unfold bterm.
      rewrite choose_S, qn_plus. cbn [qpow Nat.sub]. ring. }
    assert (E2 : (1 - h) * qsum (map (bterm h n) (seq 0 (S n))) ==
                 bterm h (S n) 0%nat + qsum (map (fun k => qn (choose n (S k)) * qpow h (S k) * qpow (1 - h) (n - k)) (seq 0 (S n)))).
    { rewrite seq_shift_map. rewrite seq_S, map_app, qsum_app. cbn [plus map qsum fold_right].
      rewrite (choose_big n (S n)) by lia.
      change (qsum (bterm h n 0 :: map (fun k => bterm h n (S k)) (seq 0 n)))
        with (bterm h n 0 + qsum (map (fun k => bterm h n (S k)) (seq 0 n))).
      rewrite Qmult_plus_distr_r, <- qsum_mul.
      rewrite (qsum_ext (fun k => (1 - h) * bterm h n (S k)) (fun k => qn (choose n (S k)) * qpow h (S k) * qpow (1 - h) (n - k))).
      - unfold bterm. rewrite !choose_0. rewrite !Nat.sub_0_r. cbn [qpow]. change (qn 0) with 0. ring.
      - intros k Hk. apply in_seq in Hk. unfold bterm. replace (n - k)%nat with (S (n - S k))%nat by lia. cbn [qpow]. ring. }
    change (qsum (bterm h (S n) 0 :: map (fun k => bterm h (S n) (S k)) (seq 0 (S n))))
      with (bterm h (S n) 0 + qsum (map (fun k => bterm h (S n) (S k)) (seq 0 (S n)))).
    rewrite E1. rewrite E2. ring. }
  rewrite E, IH. ring.
Qed.
Lemma mean_part_eq n h : (0 < n)%nat -> mean_part n h == h.
Proof.
  intros Hn. destruct n as [|n]; [lia|]. unfold mean_part. replace (S n + 1)%nat with (S (S n)) by lia.
  rewrite seq_shift_map.
  change (qsum (?a :: ?l)) with (a + qsum l).
  assert (E : qsum (map (fun k => qn (S k) / qn (S n) * qn (ncr (S n) (S k)) * qpow h (S k) * qpow (1 - h) (S n - S k)) (seq 0 (S n)))
              == h * qsum (map (bterm h n) (seq 0 (S n)))).
  { rewrite <- qsum_mul. apply qsum_ext. intros k Hk. apply in_seq in Hk.
    rewrite ncr_choose by lia. unfold bterm. cbn [qpow Nat.sub].
    assert (A : qn (choose (S n) (S k)) * qn (S k) == qn (choose n k) * qn (S n)).
    { rewrite <- !qn_mul. rewrite choose_absorb'. reflexivity. }
    assert (Hp := qn_pos (S n) ltac:(lia)).
    assert (B : qn (S k) / qn (S n) * qn (choose (S n) (S k)) == qn (choose n k)).
    { setoid_replace (qn (S k) / qn (S n) * qn (choose (S n) (S k))) with ((qn (choose (S n) (S k)) * qn (S k)) / qn (S n))
        by (field; lra). rewrite A. field. lra. }
    rewrite B. ring. }
  change (qn 0) with 0.
  assert (E' := E). cbn [Nat.sub] in *. rewrite E', bsum_1.
  assert (Hp := qn_pos (S n) ltac:(lia)). field. lra.
Qed.

(** ** Columns of M *)
Lemma qsum_kd i n : (i < n)%nat -> qsum (map (fun j => if (i =? j)%nat then 1 else 0) (seq 0 n)) == 1.
Proof.
  intros H. replace n with (i + S (n - S i))%nat by lia. rewrite seq_app, map_app, qsum_app. cbn [plus seq map].
  rewrite Nat.eqb_refl. change (qsum (?a :: ?l)) with (a + qsum l).
  rewrite (qsum_ext _ (fun _ => 0 * 0) (seq 0 i)).
  2:{ intros j Hj. apply in_seq in Hj. replace (i =? j)%nat with false by (symmetry; apply Nat.eqb_neq; lia). reflexivity. }
  rewrite (qsum_ext _ (fun _ => 0 * 0) (seq (S i) _)).
  2:{ intros j Hj. apply in_seq in Hj. replace (i =? j)%nat with false by (symmetry; apply Nat.eqb_neq; lia). reflexivity. }
  rewrite !(qsum_mul (fun _ => 0)). ring.
Qed.
Lemma qsum_nth l : qsum (map (fun j => nth j l 0) (seq 0 (length l))) == qsum l.
Proof.
  induction l as [|x l IH]; [reflexivity|]. cbn [length]. rewrite seq_shift_map.
  change (qsum (nth 0 (x :: l) 0 :: map (fun k => nth (S k) (x :: l) 0) (seq 0 (length l))))
    with (x + qsum (map (fun k => nth k l 0) (seq 0 (length l)))). rewrite IH. reflexivity.
Qed.
Lemma qsum_const c n : qsum (map (fun _ => c) (seq 0 n)) == qn n * c.
Proof.
  induction n as [|n IH]; [cbn; change (qn 0) with 0; ring|]. rewrite seq_S, map_app, qsum_app, IH, qn_S. cbn. ring.
Qed.
Lemma m_column_ok scale nmems hs i : length scale = length nmems -> distribution scale -> (i < length nmems)%nat ->
  prob (nth i hs 0) -> length (m_column scale nmems hs i) = length nmems /\ distribution (m_column scale nmems hs i).
Proof.
  intros Hl [Hs Hsum] Hi [Hh0 Hh1]. unfold m_column. split; [rewrite map_length, seq_length; reflexivity|].
  set (n := nth i nmems 0%nat). set (h := nth i hs 0) in *.
  assert (Hq := qn_pos (length nmems) ltac:(lia)).
  unfold m_entry. destruct (n =? 0)%nat eqn:En.
  - split.
    + apply Forall_forall. intros q Hq'. apply in_map_iff in Hq' as (j & <- & _). split.
      * apply Qle_shift_div_l; lra.
      * apply Qle_shift_div_r; [lra|]. assert (E : qn 1 <= qn (length nmems)) by (unfold qn; rewrite <- Zle_Qle; lia).
        change (qn 1) with 1 in E. lra.
    + rewrite qsum_const. field. lra.
  - apply Nat.eqb_neq in En. split.
    + apply Forall_forall. intros q Hq'. apply in_map_iff in Hq' as (j & <- & Hj). apply in_seq in Hj.
      assert (Hm := mean_part_eq n h ltac:(lia)).
      assert (Hg : prob (nth j scale 0)) by (rewrite Forall_forall in Hs; apply Hs, nth_In; lia). destruct Hg as [Hg0 Hg1].
      assert (K1 : 0 <= nth j scale 0 * h) by (apply Qmult_le_0_compat; auto).
      assert (K2 : nth j scale 0 * h <= h) by nra.
      unfold prob. destruct (i =? j)%nat; rewrite Hm; split; nra.
    + rewrite (qsum_ext _ (fun j => (1 - h) * (if (i =? j)%nat then 1 else 0) + h * nth j scale 0)).
      2:{ intros j _. rewrite (mean_part_eq n h ltac:(lia)). destruct (i =? j)%nat; ring. }
      rewrite qsum_plus, !qsum_mul, qsum_kd by auto. rewrite <- Hl, qsum_nth, Hsum. ring.
Qed.

(** ** Strengths *)
Lemma scaled_ok l s : Forall (fun x => 0 <= x) l -> scaled l = Some s -> length s = length l /\ distribution s.
Proof.
  intros Hl H. unfold scaled in H. destruct (Qeq_bool (qsum l) 0) eqn:E; [discriminate|]. injection H as <-.
  assert (Hn : ~ qsum l == 0) by (intros X; apply Qeq_bool_iff in X; congruence).
  assert (Hp : 0 < qsum l). { pose proof (qsum_nonneg _ Hl). apply Qle_lteq in H as [H|H]; auto. exfalso; apply Hn; symmetry; exact H. }
  split; [apply map_length|]. split.
  - apply Forall_map, Forall_forall. intros x Hx. pose proof (qsum_ge _ _ Hl Hx). rewrite Forall_forall in Hl. specialize (Hl _ Hx).
    split; [apply Qle_shift_div_l; lra | apply Qle_shift_div_r; lra].
  - rewrite qsum_div by auto. field. auto.
Qed.
Lemma scaled_total l x : Forall (fun x => 0 <= x) l -> In x l -> 0 < x -> exists s, scaled l = Some s.
Proof.
  intros Hl Hx Hp. unfold scaled. pose proof (qsum_ge _ _ Hl Hx).
  destruct (Qeq_bool (qsum l) 0) eqn:E; [apply Qeq_bool_iff in E; lra | eauto].
Qed.

Lemma fold_min_spec l : forall x, let m := fold_left qmin2 l x in m <= x /\ (forall y, In y l -> m <= y) /\ (m = x \/ In m l).
Proof.
  induction l as [|y l IH]; intros x; cbn; [split; [lra | split; [intros ? [] | auto]]|].
  destruct (IH (qmin2 x y)) as (H1 & H2 & H3). unfold qmin2 in *. destruct (Qle_bool x y) eqn:E.
  - apply Qle_bool_iff in E. split; [auto|]. split; [intros z [<-|Hz]; [lra | auto]|]. destruct H3; auto.
  - assert (y < x) by (apply Qnot_le_lt; intros X; apply Qle_bool_iff in X; congruence).
    split; [lra|]. split; [intros z [<-|Hz]; auto|]. destruct H3; auto.
Qed.
Lemma fold_max_spec l : forall x, let m := fold_left qmax2 l x in x <= m /\ (forall y, In y l -> y <= m) /\ (m = x \/ In m l).
Proof.
  induction l as [|y l IH]; intros x; cbn; [split; [lra | split; [intros ? [] | auto]]|].
  destruct (IH (qmax2 x y)) as (H1 & H2 & H3). unfold qmax2 in *. destruct (Qle_bool y x) eqn:E.
  - apply Qle_bool_iff in E. split; [auto|]. split; [intros z [<-|Hz]; [lra | auto]|]. destruct H3; auto.
  - assert (x < y) by (apply Qnot_le_lt; intros X; apply Qle_bool_iff in X; congruence).
    split; [lra|]. split; [intros z [<-|Hz]; auto|]. destruct H3; auto.
Qed.
Lemma lmin_spec l m : lmin l = Some m -> In m l /\ forall y, In y l -> m <= y.
Proof.
  destruct l as [|x l]; [discriminate|]. unfold lmin. intros [= <-]. destruct (fold_min_spec l x) as (H1 & H2 & H3).
  split; [cbn; destruct H3 as [H3|H3]; [left; congruence | auto]|]. intros y [<-|Hy]; auto.
Qed.
Lemma lmax_spec l m : lmax l = Some m -> In m l /\ forall y, In y l -> y <= m.
Proof.
  destruct l as [|x l]; [discriminate|]. unfold lmax. intros [= <-]. destruct (fold_max_spec l x) as (H1 & H2 & H3).
  split; [cbn; destruct H3 as [H3|H3]; [left; congruence | auto]|]. intros y [<-|Hy]; auto.
Qed.

(** Binomial weights. *)
Lemma get_q_range r c n qt : q_ok r -> (1 <= c)%nat -> (c <= n)%nat -> get_q r c n = Some qt -> -1 <= qt /\ qt <= 1.
Proof.
  intros Hr H1 H2. unfold get_q. destruct r as [| |q]; cbn in Hr; [| |intros [= <-]; auto].
  all: destruct (n =? 1)%nat eqn:E; [discriminate|]; apply Nat.eqb_neq in E; intros [= <-].
  all: assert (A : qn c <= qn n) by (unfold qn; rewrite <- Zle_Qle; lia);
       assert (B : qn 1 <= qn c) by (unfold qn; rewrite <- Zle_Qle; lia);
       assert (C : qn 1 < qn n) by (unfold qn; rewrite <- Zlt_Qlt; lia); change (qn 1) with 1 in *.
  - setoid_replace (2 / (1 - qn n) * (1 - qn c) - 1) with (2 * ((qn c - 1) / (qn n - 1)) - 1) by (field; lra).
    assert (0 <= (qn c - 1) / (qn n - 1)) by (apply Qle_shift_div_l; lra).
    assert ((qn c - 1) / (qn n - 1) <= 1) by (apply Qle_shift_div_r; lra). lra.
  - setoid_replace (2 / (1 - qn n) * (qn c - 1) + 1) with (1 - 2 * ((qn c - 1) / (qn n - 1))) by (field; lra).
    assert (0 <= (qn c - 1) / (qn n - 1)) by (apply Qle_shift_div_l; lra).
    assert ((qn c - 1) / (qn n - 1) <= 1) by (apply Qle_shift_div_r; lra). lra.
Qed.
Lemma wts_ok sc qt : Forall prob sc -> -1 <= qt -> qt <= 1 -> Forall prob (map (fun s => ((1#2) - s) * qt + (1#2)) sc).
Proof.
  intros H H1 H2. apply Forall_map. eapply Forall_impl; [|exact H]. intros s [Hs0 Hs1]. cbn.
  assert (0 <= (1 - qt) * s) by (apply Qmult_le_0_compat; lra). assert (0 <= (1 + qt) * s) by (apply Qmult_le_0_compat; lra).
  assert (0 <= (1 - qt) * (1 - s)) by (apply Qmult_le_0_compat; lra). assert (0 <= (1 + qt) * (1 - s)) by (apply Qmult_le_0_compat; lra).
  split; nra.
Qed.
Lemma alphabeta_range r c n a : (1 <= c)%nat -> (c <= n)%nat -> (forall q, r = Const q -> 0 <= q) -> get_alphabeta r c n = Some a -> 0 <= a.
Proof.
  intros H1 H2 Hr. unfold get_alphabeta. destruct r as [| |q]; [| |intros [= <-]; auto].
  all: destruct (n =? 1)%nat eqn:E; [discriminate|]; apply Nat.eqb_neq in E; intros [= <-].
  all: assert (A : qn c <= qn n) by (unfold qn; rewrite <- Zle_Qle; lia);
       assert (B : qn 1 <= qn c) by (unfold qn; rewrite <- Zle_Qle; lia);
       assert (C : qn 1 < qn n) by (unfold qn; rewrite <- Zlt_Qlt; lia); change (qn 1) with 1 in *.
  - apply Qle_shift_div_l; lra.
  - assert ((qn c - 1) / (qn n - 1) <= 1) by (apply Qle_shift_div_r; lra). lra.
Qed.
