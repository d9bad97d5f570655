(** Proofs about the divide-and-conquer sort (tools.py:130-364). *)
From Coq Require Import List Arith ZArith QArith Bool Lia Lqa Permutation Sorting.Sorted.
From Verif Require Import Base BaseFacts Opt_Model Opt_Facts ND_Model ND_Spec ND_Proofs NDL_Model.
Import ListNotations.
Open Scope nat_scope.

(** ** Keys *)
Definition wf (m : nat) (k : key) : Prop := length k = m /\ map Qred k = k.
Definition gek (k : nat) (a b : key) : Prop := forall i, i < k -> (coord i b <= coord i a)%Q.

Lemma wf_reduced w : wf (length w) (reduced w).
Proof.
  unfold wf, reduced. split; [apply map_length|]. rewrite map_map. apply map_ext. intro q.
  apply Qred_complete. apply Qred_correct.
Qed.

Lemma coord_reduced i w : (coord i (reduced w) == coord i w)%Q.
Proof.
  unfold coord, reduced. destruct (Nat.lt_ge_cases i (length w)).
  - rewrite (nth_indep _ 0%Q (Qred 0)) by (rewrite map_length; auto). rewrite map_nth. apply Qred_correct.
  - rewrite !nth_overflow by (rewrite ?map_length; auto). reflexivity.
Qed.

Lemma wf_eq m a b : wf m a -> wf m b -> (forall i, i < m -> (coord i a == coord i b)%Q) -> a = b.
Proof.
  intros [La Ra] [Lb Rb] H. rewrite <- Ra, <- Rb.
  apply nth_ext with (d := 0%Q) (d' := 0%Q); [rewrite !map_length; congruence|].
  intros i Hi. rewrite map_length in Hi.
  change 0%Q with (Qred 0) at 1 2. rewrite !map_nth. apply Qred_complete. apply H. lia.
Qed.

Lemma dset_same d k v : dset d k v k = v.
Proof. unfold dset. destruct (key_dec k k); congruence. Qed.
Lemma dset_other d k v x : k <> x -> dset d k v x = d x.
Proof. unfold dset. destruct (key_dec k x); congruence. Qed.

Lemma Qltb_false a b : Qltb a b = false -> (b <= a)%Q.
Proof. intro H. destruct (Qlt_le_dec a b) as [L|L]; auto. apply Qltb_lt in L. congruence. Qed.
Lemma Qle_bool_false a b : Qle_bool a b = false -> (b < a)%Q.
Proof. intro H. destruct (Qlt_le_dec b a) as [L|L]; auto. apply Qle_bool_iff in L. congruence. Qed.

(** ** Lexicographic order *)
Lemma lex_char a : forall b, length a = length b ->
  (lex_ltb b a = true <-> exists i, i < length a /\ (forall j, j < i -> (coord j a == coord j b)%Q) /\ (coord i b < coord i a)%Q).
Proof.
  unfold coord. induction a as [|x a IH]; intros [|y b] L; simpl in L; try discriminate.
  - split; [discriminate|]. intros (i & Hi & _). simpl in Hi. lia.
  - cbn [lex_ltb]. destruct (Qeq_bool y x) eqn:E.
    + apply Qeq_bool_iff in E. rewrite IH by lia. split.
      * intros (i & Hi & Hj & H). exists (S i). split; [simpl; lia|]. split; [|exact H].
        intros [|j] J; simpl; [lra|]. apply Hj. lia.
      * intros ([|i] & Hi & Hj & H); [simpl in H; lra|]. exists i. simpl in Hi. split; [lia|]. split; [|exact H].
        intros j J. apply (Hj (S j)). lia.
    + assert (N : ~ (y == x)%Q) by (intro Z; apply Qeq_bool_iff in Z; congruence). rewrite Qltb_lt. split.
      * intro H. exists 0. split; [simpl; lia|]. split; [intros; lia|exact H].
      * intros ([|i] & Hi & Hj & H); [exact H|]. specialize (Hj 0 ltac:(lia)). simpl in Hj. exfalso. apply N. lra.
Qed.

Definition before (a b : key) : Prop := lex_ltb b a = true.

Lemma before_irrefl a : ~ before a a.
Proof. unfold before. rewrite lex_char by auto. intros (i & _ & _ & H). lra. Qed.

Lemma before_trans m a b c : length a = m -> length b = m -> length c = m -> before a b -> before b c -> before a c.
Proof.
  unfold before. intros La Lb Lc. rewrite !lex_char by congruence.
  intros (i & Hi & Ei & Di) (j & Hj & Ej & Dj).
  destruct (Nat.lt_trichotomy i j) as [H|[H|H]].
  - exists i. split; [auto|]. split.
    + intros l J. rewrite (Ei l J). apply Ej. lia.
    + specialize (Ej i H). lra.
  - subst j. exists i. split; [auto|]. split; [|lra]. intros l J. rewrite (Ei l J). apply Ej. auto.
  - exists j. split; [lia|]. split.
    + intros l J. rewrite (Ei l ltac:(lia)). apply Ej. auto.
    + specialize (Ei j H). lra.
Qed.

Lemma before_asym a b : length a = length b -> before a b -> ~ before b a.
Proof. intros L H1 H2. apply (before_irrefl a). eapply (before_trans (length a) a b a); auto. Qed.

Lemma before_gek m a b : wf m a -> wf m b -> a <> b -> gek m a b -> before a b.
Proof.
  intros Wa Wb N G. unfold before. rewrite lex_char by (destruct Wa, Wb; congruence).
  assert (La := proj1 Wa).
  assert (H : forall n, n <= m -> (forall i, i < n -> (coord i a == coord i b)%Q) \/
      (exists i, i < n /\ (forall j, j < i -> (coord j a == coord j b)%Q) /\ (coord i b < coord i a)%Q)).
  { induction n; intro Hn; [left; intros; lia|].
    destruct IHn as [E|(i & Hi & E & D)]; [lia| |].
    - destruct (Qlt_le_dec (coord n b) (coord n a)) as [D|D].
      + right. exists n. auto.
      + left. intros i Hi. destruct (Nat.eq_dec i n) as [->|]; [|apply E; lia].
        specialize (G n ltac:(lia)). lra.
    - right. exists i. split; [lia|]. auto. }
  destruct (H m ltac:(lia)) as [E|(i & Hi & E & D)].
  - exfalso. apply N. eapply wf_eq; eauto.
  - exists i. split; [lia|]. auto.
Qed.

Lemma before_total m a b : wf m a -> wf m b -> a <> b -> before a b \/ before b a.
Proof.
  intros Wa Wb N. unfold before.
  assert (L : length a = length b) by (destruct Wa, Wb; congruence).
  rewrite !lex_char by congruence.
  assert (H : forall n, n <= m -> (forall i, i < n -> (coord i a == coord i b)%Q) \/
      (exists i, i < n /\ (forall j, j < i -> (coord j a == coord j b)%Q) /\ ((coord i b < coord i a)%Q \/ (coord i a < coord i b)%Q))).
  { induction n; intro Hn; [left; intros; lia|].
    destruct IHn as [E|(i & Hi & E & D)]; [lia| |].
    - destruct (Q_dec (coord n a) (coord n b)) as [[D|D]|D].
      + right. exists n. auto.
      + right. exists n. auto.
      + left. intros i Hi. destruct (Nat.eq_dec i n) as [->|]; [auto|apply E; lia].
    - right. exists i. split; [lia|]. auto. }
  destruct Wa as [La Ra], Wb as [Lb Rb].
  destruct (H m ltac:(lia)) as [E|(i & Hi & E & [D|D])].
  - exfalso. apply N. apply (wf_eq m); [split; auto|split; auto|exact E].
  - left. exists i. split; [lia|]. auto.
  - right. exists i. split; [lia|]. split; [|auto]. intros j J. symmetry. auto.
Qed.

(** First two coordinates of an earlier key. *)
Lemma before_first m a b : 2 <= m -> wf m a -> wf m b -> before a b ->
  (coord 0 b < coord 0 a)%Q \/ ((coord 0 a == coord 0 b)%Q /\ (coord 1 b <= coord 1 a)%Q).
Proof.
  intros M [La _] [Lb _] H. unfold before in H. rewrite lex_char in H by congruence.
  destruct H as (i & Hi & E & D). destruct i as [|[|i]].
  - left. auto.
  - right. split; [apply E; lia|lra].
  - right. split; [apply E; lia|]. rewrite (E 1) by lia. lra.
Qed.

Definition sorted (l : list key) : Prop := StronglySorted before l.

Lemma sorted_NoDup l : sorted l -> NoDup l.
Proof.
  induction 1; constructor; auto. intro I. rewrite Forall_forall in H0. apply (before_irrefl a). auto.
Qed.

Lemma SS_filter {A} (R : A -> A -> Prop) p l : StronglySorted R l -> StronglySorted R (filter p l).
Proof.
  induction 1; simpl; [constructor|]. destruct (p a); auto. constructor; auto.
  rewrite Forall_forall in *. intros x I. apply filter_In in I. apply H0. tauto.
Qed.

Lemma SS_app {A} (R : A -> A -> Prop) l1 l2 : StronglySorted R (l1 ++ l2) <->
  StronglySorted R l1 /\ StronglySorted R l2 /\ forall x y, In x l1 -> In y l2 -> R x y.
Proof.
  induction l1 as [|a l1 IH]; simpl.
  - split; [intro H; split; [constructor|split; [auto|intros; tauto]]|tauto].
  - split.
    + intro H. inversion H as [|? ? H1 H2]; subst. apply IH in H1. destruct H1 as (P & Q & Z).
      rewrite Forall_app in H2. destruct H2 as [F1 F2]. split; [constructor; auto|]. split; auto.
      intros x y [<-|I] J; [|auto]. rewrite Forall_forall in F2. auto.
    + intros (P & Q & Z). inversion P as [|? ? H1 H2]; subst. constructor.
      * apply IH. split; auto.
      * apply Forall_app. split; auto. apply Forall_forall. intros y J. apply Z; auto.
Qed.

(** ** "Largest of [v0] and one more than the [g] values of the [P]s" *)
Definition ismax (v0 : nat) (P : key -> Prop) (g : key -> nat) (v : nat) : Prop :=
  v0 <= v /\ (forall y, P y -> g y + 1 <= v) /\ (v = v0 \/ exists y, P y /\ v = g y + 1).

Lemma ismax_ext v0 P g P' g' v : ismax v0 P g v -> (forall y, P y <-> P' y) -> (forall y, P y -> g y = g' y) -> ismax v0 P' g' v.
Proof.
  intros (A & B & C) E G. split; [auto|]. split.
  - intros y Y. apply E in Y. rewrite <- (G y) by auto. auto.
  - destruct C as [C|(y & Y & C)]; [auto|]. right. exists y. split; [apply E; auto|]. rewrite <- G; auto.
Qed.

Lemma ismax_union v0 P P' g v1 v : ismax v0 P g v1 -> ismax v1 P' g v -> ismax v0 (fun y => P y \/ P' y) g v.
Proof.
  intros (A & B & C) (A' & B' & C'). split; [lia|]. split.
  - intros y [Y|Y]; [specialize (B y Y); lia|auto].
  - destruct C' as [->|(y & Y & ->)]; [|right; exists y; auto].
    destruct C as [C|(y & Y & C)]; [auto|]. right. exists y. auto.
Qed.

Lemma ismax_none v0 (P : key -> Prop) g : (forall y, ~ P y) -> ismax v0 P g v0.
Proof. intro N. split; [auto|]. split; [|auto]. intros y Y. exfalso. exact (N y Y). Qed.

Lemma top_ge f l x : In x l -> f x <= top f l.
Proof. induction l; simpl; [tauto|]. intros [<-|I]; [lia|]. specialize (IHl I). lia. Qed.
Lemma top_in f l : l <> [] -> exists x, In x l /\ top f l = f x.
Proof.
  induction l as [|a l IH]; [congruence|]. intros _. destruct l as [|b l].
  - exists a. simpl. split; [auto|lia].
  - destruct IH as (x & I & E); [discriminate|]. change (top f (a :: b :: l)) with (Nat.max (f a) (top f (b :: l))).
    rewrite E. destruct (Nat.max_spec (f a) (f x)) as [[_ ->]|[_ ->]]; [exists x; simpl; tauto|exists a; simpl; tauto].
Qed.

Lemma ismax_top v0 f l : l <> [] -> ismax v0 (fun y => In y l) f (Nat.max v0 (top f l + 1)).
Proof.
  intro N. split; [lia|]. split.
  - intros y Y. pose proof (top_ge f l y Y). lia.
  - destruct (Nat.max_spec v0 (top f l + 1)) as [[_ ->]|[_ ->]]; [|auto]. right.
    destruct (top_in f l N) as (x & I & E). exists x. rewrite E. auto.
Qed.

(** ** Stairs *)
Definition stair_order (a b : key) : Prop := (coord 1 b <= coord 1 a)%Q.

Lemma bisect_spec v st : StronglySorted stair_order st ->
  (forall s, In s (firstn (bisect v st) st) -> (v <= coord 1 s)%Q) /\
  (forall s, In s (skipn (bisect v st) st) -> (coord 1 s < v)%Q).
Proof.
  induction 1 as [|a l H IH F]; simpl; [split; intros; tauto|].
  destruct (Qle_bool v (coord 1 a)) eqn:E; simpl.
  - apply Qle_bool_iff in E. destruct IH as [I1 I2]. split; [|auto]. intros s [<-|I]; auto.
  - apply Qle_bool_false in E. split; [tauto|]. intros s [<-|I]; [auto|].
    rewrite Forall_forall in F. specialize (F s I). unfold stair_order in F. lra.
Qed.

Lemma del_front_in f v l x : In x (del_front f v l) -> In x l.
Proof. induction l; simpl; [tauto|]. destruct (f a =? v); simpl; tauto. Qed.
Lemma del_front_sorted (R : key -> key -> Prop) f v l : StronglySorted R l -> StronglySorted R (del_front f v l).
Proof.
  induction 1; simpl; [constructor|]. destruct (f a =? v); auto. constructor; auto.
  rewrite Forall_forall in *. intros x I. apply H0. eapply del_front_in; eauto.
Qed.
Lemma del_front_keeps f v l x : In x l -> In x (del_front f v l) \/ f x = v.
Proof.
  induction l as [|a l IH]; simpl; [tauto|]. destruct (f a =? v) eqn:E.
  - apply Nat.eqb_eq in E. intros [<-|I]; auto.
  - intros [<-|I]; [left; simpl; auto|]. destruct (IH I); simpl; auto.
Qed.

Lemma firstn_skipn_in {A} n (l : list A) x : In x l -> In x (firstn n l) \/ In x (skipn n l).
Proof. intro I. rewrite <- (firstn_skipn n l) in I. apply in_app_iff in I. auto. Qed.
Lemma SS_firstn_skipn {A} (R : A -> A -> Prop) n l : StronglySorted R l ->
  StronglySorted R (firstn n l) /\ StronglySorted R (skipn n l) /\ forall x y, In x (firstn n l) -> In y (skipn n l) -> R x y.
Proof. intro H. rewrite <- (firstn_skipn n l) in H. apply SS_app in H. auto. Qed.

Section Sweeps.
Context (m : nat) (Hm : 2 <= m).

(** ** sweepA *)
Definition same_above (obj : nat) (l : list key) : Prop :=
  forall a b i, In a l -> In b l -> obj < i < m -> (coord i a == coord i b)%Q.

Lemma gek_extend obj l a b : same_above obj l -> In a l -> In b l -> gek (obj + 1) a b -> gek m a b.
Proof.
  intros SA Ia Ib G i Hi. destruct (Nat.lt_ge_cases i (obj + 1)); [apply G; auto|].
  rewrite (SA a b i Ia Ib ltac:(lia)). lra.
Qed.

Definition A_rel (obj : nat) (l : list key) (x y : key) : Prop := In y l /\ gek (obj + 1) y x /\ y <> x.
Definition A_post (obj : nat) (l : list key) (f f' : fdict) : Prop :=
  (forall x, ~ In x l -> f' x = f x) /\
  (forall x, In x l -> ismax (f x) (A_rel obj l x) f' (f' x)).

(** An earlier key has a first objective at least as large; only earlier keys dominate. *)
Lemma earlier l1 x l2 : sorted (l1 ++ x :: l2) -> Forall (wf m) (l1 ++ x :: l2) -> same_above 1 (l1 ++ x :: l2) ->
  (forall y, In y l1 -> (gek 2 y x /\ y <> x) <-> (coord 1 x <= coord 1 y)%Q) /\
  (forall y, In y l1 -> ~ (gek 2 x y)).
Proof.
  intros Srt W SA. rewrite Forall_forall in W.
  assert (Wx : wf m x) by (apply W; apply in_app_iff; simpl; auto).
  apply SS_app in Srt. destruct Srt as (_ & _ & Bef).
  assert (E : forall y, In y l1 -> wf m y /\ before y x).
  { intros y I. split; [apply W; apply in_app_iff; auto|apply Bef; simpl; auto]. }
  split.
  - intros y I. destruct (E y I) as [Wy B]. pose proof (before_first m y x Hm Wy Wx B) as Fi. split.
    + intros [G _]. apply (G 1). lia.
    + intro C. split; [|intros ->; exact (before_irrefl _ B)].
      intros [|[|i]] Hi; [|auto|lia]. destruct Fi as [Fi|[Fi _]]; lra.
  - intros y I G. destruct (E y I) as [Wy B].
    assert (N : x <> y) by (intros ->; exact (before_irrefl _ B)).
    apply (before_asym y x); [destruct Wy, Wx; congruence|exact B|].
    eapply before_gek; eauto. eapply (gek_extend 1 (l1 ++ x :: l2)); eauto; apply in_app_iff; simpl; auto.
Qed.

Definition A_inv (l : list key) (f : fdict) (P : list key) (st : fdict * list key) : Prop :=
  (forall x, ~ In x P -> fst st x = f x) /\
  (forall x, In x P -> ismax (f x) (A_rel 1 P x) (fst st) (fst st x)) /\
  (forall s, In s (snd st) -> In s P) /\ StronglySorted stair_order (snd st) /\
  (forall g, In g P -> exists s, In s (snd st) /\ (coord 1 g <= coord 1 s)%Q /\ fst st s = fst st g).

Lemma sweepA_inv l f : sorted l -> Forall (wf m) l -> same_above 1 l ->
  forall R P st, l = P ++ R -> A_inv l f P st -> A_inv l f l (fold_left sweepA_step R st).
Proof.
  intros Srt W SA. induction R as [|x R IH]; intros P st E I.
  - rewrite app_nil_r in E. subst P. exact I.
  - cbn [fold_left]. apply (IH (P ++ [x])); [rewrite <- app_assoc; exact E|].
    rewrite E in Srt, W, SA. destruct (earlier P x R Srt W SA) as [Dom NoD].
    apply sorted_NoDup in Srt. apply NoDup_app_iff in Srt. destruct Srt as (_ & ND & Dis).
    assert (Nx : ~ In x P) by (intro Z; exact (Dis x Z (or_introl eq_refl))).
    destruct st as [f' st]. destruct I as (I1 & I2 & I3 & I4 & I5). cbn [fst snd] in *.
    unfold sweepA_step. set (idx := bisect (coord 1 x) st).
    destruct (bisect_spec (coord 1 x) st I4) as [Hi Lo]. fold idx in Hi, Lo.
    set (f2 := if 0 <? idx then dset f' x (Nat.max (f' x) (top f' (firstn idx st) + 1)) else f').
    assert (F2o : forall y, y <> x -> f2 y = f' y).
    { intros y N. unfold f2. destruct (0 <? idx); auto. apply dset_other. congruence. }
    assert (F2P : forall y, In y P -> f2 y = f' y).
    { intros y Y. apply F2o. intros ->. auto. }
    assert (F2x : ismax (f x) (A_rel 1 P x) f2 (f2 x)).
    { assert (Z : ismax (f x) (fun y => In y (firstn idx st)) f' (f2 x)).
      { unfold f2. rewrite <- (I1 x Nx). destruct (0 <? idx) eqn:E0.
        - rewrite dset_same. apply ismax_top. apply Nat.ltb_lt in E0. destruct st; [cbn in idx; subst idx; lia|].
          destruct idx; [lia|discriminate].
        - apply Nat.ltb_ge in E0. assert (idx = 0) as -> by lia. apply ismax_none. simpl. auto. }
      destruct Z as (Z1 & Z2 & Z3). split; [auto|]. split.
      - intros y (Y & G & N). rewrite F2P by auto.
        assert (C : (coord 1 x <= coord 1 y)%Q) by (apply Dom; auto).
        destruct (I5 y Y) as (s & Is & Cs & Es). rewrite <- Es. apply Z2.
        destruct (firstn_skipn_in idx st s Is) as [F|F]; auto. specialize (Lo s F). lra.
      - destruct Z3 as [Z3|(y & Y & Z3)]; [auto|]. right. exists y.
        assert (Iy : In y P) by (apply I3; apply (in_firstn _ _ _ Y)).
        rewrite (F2P y Iy). split; [|auto]. specialize (Hi y Y). split; [auto|]. apply Dom; auto. }
    assert (Srt2 : StronglySorted stair_order (firstn idx st ++ x :: del_front f2 (f2 x) (skipn idx st))).
    { destruct (SS_firstn_skipn _ idx st I4) as (S1 & S2 & S3). apply SS_app. split; [auto|]. split.
      - constructor; [apply del_front_sorted; auto|]. apply Forall_forall. intros s Is. apply del_front_in in Is.
        specialize (Lo s Is). unfold stair_order. lra.
      - intros a b Ia [<-|Ib]; [apply Hi; auto|]. apply del_front_in in Ib. auto. }
    unfold A_inv. cbn [fst snd]. split; [|split; [|split; [|split]]].
    + intros y N. rewrite in_app_iff in N. simpl in N. rewrite F2o by (intros ->; tauto). apply I1. tauto.
    + intros y Y. apply in_app_iff in Y. destruct Y as [Y|[<-|[]]].
      * rewrite (F2P y Y). eapply ismax_ext; [apply (I2 y Y)| |].
        -- intro z. unfold A_rel. split; intros (A & B & C); (split; [|split; auto]).
           ++ apply in_app_iff. auto.
           ++ apply in_app_iff in A. destruct A as [A|[<-|[]]]; auto. exfalso. exact (NoD y Y B).
        -- intros z (A & _). symmetry. apply F2P. auto.
      * eapply ismax_ext; [exact F2x| |auto]. intro z. unfold A_rel. split; intros (A & B & C); (split; [|split; auto]).
        -- apply in_app_iff. auto.
        -- apply in_app_iff in A. destruct A as [A|[<-|[]]]; auto. congruence.
    + intros s Is. apply in_app_iff in Is. apply in_app_iff. destruct Is as [Is|[<-|Is]].
      * left. apply I3. apply (in_firstn _ _ _ Is).
      * simpl. auto.
      * left. apply I3. apply del_front_in in Is. apply (in_skipn _ _ _ Is).
    + exact Srt2.
    + intros g G. apply in_app_iff in G. destruct G as [G|[<-|[]]].
      * destruct (I5 g G) as (s & Is & Cs & Es). pose proof (I3 s Is) as Ps.
        destruct (firstn_skipn_in idx st s Is) as [F|F].
        -- exists s. split; [apply in_app_iff; auto|]. split; auto. rewrite !F2P; auto.
        -- destruct (del_front_keeps f2 (f2 x) _ s F) as [K|K].
           ++ exists s. split; [apply in_app_iff; simpl; auto|]. split; auto. rewrite !F2P; auto.
           ++ exists x. split; [apply in_app_iff; simpl; auto|]. specialize (Lo s F). split; [lra|].
              rewrite <- K. rewrite !F2P by auto. auto.
      * exists x. split; [apply in_app_iff; simpl; auto|]. split; [lra|auto].
Qed.

Lemma sweepA_ok l f : sorted l -> Forall (wf m) l -> same_above 1 l -> A_post 1 l f (sweepA l f).
Proof.
  intros Srt W SA. destruct l as [|x l].
  - split; [auto|]. intros x [].
  - unfold sweepA.
    assert (I : A_inv (x :: l) f (x :: l) (fold_left sweepA_step l (f, [x]))).
    { apply (sweepA_inv (x :: l) f Srt W SA l [x]); [reflexivity|].
      split; [auto|]. cbn [fst snd]. split; [|split; [auto|split]].
      - intros y [<-|[]]. apply ismax_none. intros y ([<-|[]] & _ & N). auto.
      - constructor; constructor.
      - intros g [<-|[]]. exists x. simpl. split; [auto|]. split; [lra|auto]. }
    destruct I as (I1 & I2 & _). split; auto.
Qed.

(** ** sweepB *)
Definition B_rel (obj : nat) (best : list key) (h l : key) : Prop := In l best /\ gek (obj + 1) l h.
Definition B_post (obj : nat) (best worst : list key) (f f' : fdict) : Prop :=
  (forall x, ~ In x worst -> f' x = f x) /\
  (forall x, In x worst -> ismax (f x) (B_rel obj best x) f (f' x)).

(** Stairs over the best seen so far. *)
Definition stairs_ok (f : fdict) (P st : list key) : Prop :=
  (forall s, In s st -> In s P) /\ StronglySorted stair_order st /\
  (forall g, In g P -> exists s, In s st /\ (coord 1 g <= coord 1 s)%Q /\ f s = f g).

Lemma find_front_some f v l s : find_front f v l = Some s -> In s l /\ f s = v.
Proof.
  induction l as [|a l IH]; simpl; [discriminate|]. destruct (f a =? v) eqn:E.
  - intro H. inversion H; subst. apply Nat.eqb_eq in E. auto.
  - intro H. destruct (IH H). auto.
Qed.
Lemma del_find f v l s x : StronglySorted stair_order l -> find_front f v l = Some s -> In x l ->
  In x (del_front f v l) \/ x = s.
Proof.
  intros _. induction l as [|a l IH]; simpl; [discriminate|]. destruct (f a =? v) eqn:E.
  - intro H. inversion H; subst. intros [<-|I]; auto.
  - intros H [<-|I]; [left; simpl; auto|]. destruct (IH H I); simpl; auto.
Qed.

Lemma place_sorted nb st : StronglySorted stair_order st ->
  let i := bisect (coord 1 nb) st in StronglySorted stair_order (firstn i st ++ nb :: skipn i st).
Proof.
  intros H i. destruct (bisect_spec (coord 1 nb) st H) as [Hi Lo]. fold i in Hi, Lo.
  destruct (SS_firstn_skipn _ i st H) as (S1 & S2 & S3). apply SS_app. split; [auto|]. split.
  - constructor; auto. apply Forall_forall. intros s Is. specialize (Lo s Is). unfold stair_order. lra.
  - intros a b Ia [<-|Ib]; [apply Hi; auto|auto].
Qed.
Lemma place_in (nb : key) st i (x : key) : In x (firstn i st ++ nb :: skipn i st) <-> x = nb \/ In x st.
Proof.
  rewrite in_app_iff. simpl. split.
  - intros [I|[->|I]]; [right; apply (in_firstn _ _ _ I)|auto|right; apply (in_skipn _ _ _ I)].
  - intros [->|I]; [auto|]. destruct (firstn_skipn_in i st x I); auto.
Qed.

Lemma push_ok f P st nb : stairs_ok f P st -> stairs_ok f (P ++ [nb]) (push f st nb).
Proof.
  intros (I1 & I2 & I3). unfold push. destruct (find_front f (f nb) st) as [s|] eqn:E.
  - destruct (find_front_some _ _ _ _ E) as [Is Es]. destruct (Qltb (coord 1 nb) (coord 1 s)) eqn:C.
    + apply Qltb_lt in C. split; [intros x X; apply in_app_iff; auto|]. split; [auto|].
      intros g G. apply in_app_iff in G. destruct G as [G|[<-|[]]]; [auto|]. exists s. split; [auto|]. split; [lra|auto].
    + apply Qltb_false in C. set (st' := del_front f (f nb) st).
      assert (S' : StronglySorted stair_order st') by (apply del_front_sorted; auto).
      split; [|split; [apply place_sorted; auto|]].
      * intros x X. apply place_in in X. apply in_app_iff. destruct X as [->|X]; [simpl; auto|].
        left. apply I1. eapply del_front_in; eauto.
      * intros g G. apply in_app_iff in G. destruct G as [G|[<-|[]]].
        -- destruct (I3 g G) as (s' & Is' & Cs' & Es').
           destruct (del_find f (f nb) st s s' I2 E Is') as [D| ->].
           ++ exists s'. split; [apply place_in; auto|auto].
           ++ exists nb. split; [apply place_in; auto|]. split; [lra|congruence].
        -- exists nb. split; [apply place_in; auto|]. split; [lra|auto].
  - split; [|split; [apply place_sorted; auto|]].
    + intros x X. apply place_in in X. apply in_app_iff. destruct X as [->|X]; simpl; auto.
    + intros g G. apply in_app_iff in G. destruct G as [G|[<-|[]]].
      * destruct (I3 g G) as (s' & Is' & Cs' & Es'). exists s'. split; [apply place_in; auto|auto].
      * exists nb. split; [apply place_in; auto|]. split; [lra|auto].
Qed.

Definition lex2_le (a b : key) : Prop := (coord 0 a < coord 0 b)%Q \/ ((coord 0 a == coord 0 b)%Q /\ (coord 1 a <= coord 1 b)%Q).
Lemma lex2_spec a b : lex2_leb a b = true <-> lex2_le a b.
Proof.
  unfold lex2_leb, lex2_le. destruct (Qeq_bool (coord 0 a) (coord 0 b)) eqn:E.
  - apply Qeq_bool_iff in E. rewrite Qle_bool_iff. split; [auto|]. intros [H|[_ H]]; [lra|auto].
  - assert (N : ~ (coord 0 a == coord 0 b)%Q) by (intro Z; apply Qeq_bool_iff in Z; congruence).
    rewrite Qltb_lt. split; [auto|]. intros [H|[H _]]; [auto|tauto].
Qed.
Lemma lex2_trans a b c : lex2_le a b -> lex2_le b c -> lex2_le a c.
Proof. unfold lex2_le. intros [H|[H1 H2]] [K|[K1 K2]]; lra. Qed.
Lemma before_lex2 a b : wf m a -> wf m b -> before a b -> lex2_le b a.
Proof. intros Wa Wb B. destruct (before_first m a b Hm Wa Wb B) as [H|[H K]]; [left; auto|right; split; [lra|auto]]. Qed.

Lemma push_while_ok f h : forall best P st, stairs_ok f P st ->
  exists Q best', push_while f h best st = (best', snd (push_while f h best st)) /\ best = Q ++ best' /\
    stairs_ok f (P ++ Q) (snd (push_while f h best st)) /\
    Forall (lex2_le h) Q /\ (match best' with [] => True | b :: _ => ~ lex2_le h b end).
Proof.
  induction best as [|nb best IH]; intros P st I; simpl.
  - exists [], []. rewrite (app_nil_r P). split; [reflexivity|]. split; [reflexivity|]. split; [exact I|]. split; [constructor|exact Logic.I].
  - destruct (lex2_leb h nb) eqn:E.
    + destruct (IH (P ++ [nb]) (push f st nb) (push_ok _ _ _ _ I)) as (Q & best' & E1 & E2 & E3 & E4 & E5).
      exists (nb :: Q), best'. split; [exact E1|]. split; [simpl; congruence|].
      split; [rewrite <- app_assoc in E3; exact E3|]. split; [|exact E5]. constructor; [apply lex2_spec; auto|auto].
    + exists [], (nb :: best). rewrite (app_nil_r P). split; [auto|]. split; [auto|]. split; [auto|]. split; [constructor|].
      rewrite <- lex2_spec. congruence.
Qed.

Lemma stairs_ext f f' P st : (forall p, In p P -> f p = f' p) -> stairs_ok f P st -> stairs_ok f' P st.
Proof.
  intros E (I1 & I2 & I3). split; [auto|]. split; [auto|]. intros g G. destruct (I3 g G) as (s & A & B & C).
  exists s. split; [auto|]. split; [auto|]. rewrite <- !E; auto.
Qed.

Lemma sweepB_inv best worst f : sorted best -> sorted worst -> Forall (wf m) best -> Forall (wf m) worst ->
  (forall x, In x best -> ~ In x worst) ->
  forall R W s, worst = W ++ R ->
    (let '(f', rest, st) := s in
      (forall x, ~ In x W -> f' x = f x) /\
      (forall x, In x W -> ismax (f x) (B_rel 1 best x) f (f' x)) /\
      exists P, best = P ++ rest /\ stairs_ok f P st /\ (forall p h, In p P -> In h R -> lex2_le h p)) ->
    let '(f', rest, st) := fold_left sweepB_step R s in
      (forall x, ~ In x worst -> f' x = f x) /\
      (forall x, In x worst -> ismax (f x) (B_rel 1 best x) f (f' x)).
Proof.
  intros Sb Sw Wb Ww Dis. rewrite Forall_forall in Wb, Ww. induction R as [|h R IH]; intros W s E I.
  - rewrite app_nil_r in E. subst W. simpl. destruct s as [[f' rest] st]. tauto.
  - cbn [fold_left]. apply (IH (W ++ [h])); [rewrite <- app_assoc; exact E|].
    assert (Srt := Sw). rewrite E in Srt. pose proof (sorted_NoDup _ Srt) as ND. apply NoDup_app_iff in ND.
    destruct ND as (_ & _ & DW). assert (Nh : ~ In h W) by (intro Z; exact (DW h Z (or_introl eq_refl))).
    apply SS_app in Srt. destruct Srt as (_ & SR & _). inversion SR as [|? ? SR' FR]; subst a l.
    assert (Ih : In h worst) by (rewrite E; apply in_app_iff; simpl; auto).
    destruct s as [[f' rest] st]. destruct I as (I1 & I2 & P & EP & St & Lx).
    unfold sweepB_step.
    assert (Fb : forall p, In p best -> f p = f' p).
    { intros p Ip. symmetry. apply I1. intro Z. apply (Dis p Ip). rewrite E. apply in_app_iff. auto. }
    assert (St' : stairs_ok f' P st).
    { eapply stairs_ext; [|exact St]. intros p Ip. apply Fb. rewrite EP. apply in_app_iff. auto. }
    destruct (push_while_ok f' h rest P st St') as (Q & rest' & E1 & E2 & E3 & E4 & E5).
    destruct (push_while f' h rest st) as [r' st'] eqn:EPW. cbn [snd] in *. inversion E1; subst r'. clear E1.
    assert (EB : best = (P ++ Q) ++ rest') by (rewrite EP, E2, app_assoc; auto).
    assert (AllP : forall p, In p (P ++ Q) -> lex2_le h p).
    { intros p Ip. apply in_app_iff in Ip. destruct Ip as [Ip|Ip]; [apply Lx; simpl; auto|].
      rewrite Forall_forall in E4. auto. }
    assert (NoR : forall l, In l rest' -> ~ gek 2 l h).
    { intros l Il G. assert (Lg : lex2_le h l).
      { unfold lex2_le. pose proof (G 0 ltac:(lia)). pose proof (G 1 ltac:(lia)). 
        destruct (Qlt_le_dec (coord 0 h) (coord 0 l)); [left; auto|right; split; lra]. }
      destruct rest' as [|b rest']; [destruct Il|]. apply E5.
      destruct Il as [<-|Il]; [auto|]. eapply lex2_trans; [exact Lg|].
      assert (Sb' := Sb). rewrite EB in Sb'. apply SS_app in Sb'. destruct Sb' as (_ & Sb' & _).
      inversion Sb' as [|? ? _ F]; subst. rewrite Forall_forall in F.
      apply before_lex2; [apply Wb; rewrite EB; apply in_app_iff; simpl; auto|apply Wb; rewrite EB; apply in_app_iff; simpl; auto|].
      apply F; auto. }
    destruct E3 as (T1 & T2 & T3).
    destruct (bisect_spec (coord 1 h) st' T2) as [Hi Lo]. set (idx := bisect (coord 1 h) st') in *.
    set (f2 := if 0 <? idx then _ else _).
    assert (F2o : forall y, y <> h -> f2 y = f' y).
    { intros y N. unfold f2. destruct (0 <? idx); auto. apply dset_other. congruence. }
    assert (F2h : ismax (f h) (B_rel 1 best h) f (f2 h)).
    { assert (Z : ismax (f h) (fun y => In y (firstn idx st')) f' (f2 h)).
      { unfold f2. rewrite <- (I1 h Nh). destruct (0 <? idx) eqn:E0.
        - rewrite dset_same. apply ismax_top. apply Nat.ltb_lt in E0. destruct st'; [cbn in idx; subst idx; lia|].
          destruct idx; [lia|discriminate].
        - apply Nat.ltb_ge in E0. assert (idx = 0) as -> by lia. apply ismax_none. simpl. auto. }
      destruct Z as (Z1 & Z2 & Z3). split; [auto|]. split.
      - intros y (Y & G). simpl in G. assert (Yp : In y (P ++ Q)).
        { rewrite EB in Y. apply in_app_iff in Y. destruct Y as [Y|Y]; auto. exfalso. exact (NoR y Y G). }
        destruct (T3 y Yp) as (s & Is & Cs & Es). rewrite (Fb y) by auto. rewrite <- Es. apply Z2.
        destruct (firstn_skipn_in idx st' s Is) as [F|F]; auto. specialize (Lo s F). specialize (G 1 ltac:(lia)). lra.
      - destruct Z3 as [Z3|(y & Y & Z3)]; [auto|]. right. exists y.
        assert (Iy : In y (P ++ Q)) by (apply T1; apply (in_firstn _ _ _ Y)).
        assert (Ib : In y best) by (rewrite EB; apply in_app_iff; auto).
        rewrite (Fb y Ib). split; [|auto]. split; [auto|]. specialize (Hi y Y).
        destruct (AllP y Iy) as [A|[A B]]; intros [|[|i]] J; try lra; simpl in J; lia. }
    split; [|split].
    + intros x N. rewrite in_app_iff in N. simpl in N. rewrite F2o by (intros ->; tauto). apply I1. tauto.
    + intros x X. apply in_app_iff in X. destruct X as [X|[<-|[]]]; [|exact F2h].
      rewrite F2o by (intros ->; auto). auto.
    + exists (P ++ Q). split; [auto|]. split.
      * eapply stairs_ext; [|split; [exact T1|split; [exact T2|exact T3]]]. intros p Ip. symmetry. apply Fb. rewrite EB. apply in_app_iff. auto.
      * intros p h' Ip Ih'. eapply lex2_trans; [|apply AllP; auto]. rewrite Forall_forall in FR.
        apply before_lex2; [apply Ww; auto|apply Ww; rewrite E; apply in_app_iff; simpl; auto|auto].
Qed.

Lemma sweepB_ok best worst f : sorted best -> sorted worst -> Forall (wf m) best -> Forall (wf m) worst ->
  (forall x, In x best -> ~ In x worst) -> B_post 1 best worst f (sweepB best worst f).
Proof.
  intros Sb Sw Wb Ww Dis. unfold sweepB.
  pose proof (sweepB_inv best worst f Sb Sw Wb Ww Dis worst [] (f, best, []) eq_refl) as H.
  destruct (fold_left sweepB_step worst (f, best, [])) as [[f' rest] st]. simpl. apply H.
  split; [auto|]. split; [intros x []|]. exists []. split; [auto|]. split; [|intros p h []].
  split; [auto|]. split; [constructor|]. intros g [].
Qed.

End Sweeps.
