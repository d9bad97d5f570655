(** The recursive helpers and the whole divide-and-conquer sort. *)
From Coq Require Import List Arith ZArith QArith Bool Lia Lqa Permutation Sorting.Sorted.
From Verif Require Import Base BaseFacts Opt_Model Opt_Facts ND_Model ND_Spec ND_Proofs NDL_Model NDL_Proofs.
Import ListNotations.
Open Scope nat_scope.

(** ** Splitting at the median *)
Lemma filter_neg_split {A} (p q : A -> bool) l : (forall x, q x = negb (p x)) -> length (filter p l) + length (filter q l) = length l.
Proof. intro E. induction l; simpl; [auto|]. rewrite E. destruct (p a); simpl; lia. Qed.

Lemma cut_a obj med l : length (above_a obj med l) + length (below_a obj med l) = length l.
Proof.
  apply filter_neg_split. intro x. unfold Qltb. destruct (Qle_bool med (coord obj x)); auto.
Qed.
Lemma cut_b obj med l : length (above_b obj med l) + length (below_b obj med l) = length l.
Proof. apply filter_neg_split. intro x. unfold Qltb. destruct (Qle_bool (coord obj x) med); auto. Qed.

Lemma sort_asc_nth_in (l : list Q) i : i < length l -> In (nth i (sort_asc (fun q => q) l) 0%Q) l.
Proof.
  intro H. eapply Permutation_in; [apply sort_asc_perm|]. apply nth_In.
  erewrite Permutation_length; [exact H|]. apply sort_asc_perm.
Qed.

Lemma median_between obj (l : list key) : l <> [] ->
  (exists x, In x l /\ (coord obj x <= median obj l)%Q) /\ (exists x, In x l /\ (median obj l <= coord obj x)%Q).
Proof.
  intro N. assert (L : 0 < length l) by (destruct l; [congruence|simpl; lia]).
  set (s := sort_asc (fun q : Q => q) (map (coord obj) l)).
  assert (X : forall i, i < length l -> exists x, In x l /\ coord obj x = nth i s 0%Q).
  { intros i Hi. pose proof (sort_asc_nth_in (map (coord obj) l) i ltac:(rewrite map_length; auto)) as I.
    apply in_map_iff in I. destruct I as (x & E & I). exists x. auto. }
  unfold median. fold s. destruct (Nat.odd (length l)).
  - destruct (X ((length l - 1) / 2)) as (x & I & E); [apply Nat.div_lt_upper_bound; lia|].
    split; exists x; (split; [auto|rewrite E; apply Qle_refl]).
  - destruct (X ((length l - 1) / 2)) as (x & Ix & Ex); [apply Nat.div_lt_upper_bound; lia|].
    destruct (X (length l / 2)) as (y & Iy & Ey); [apply Nat.div_lt; lia|].
    rewrite <- Ex, <- Ey.
    assert (D : forall a b : Q, ((a + b) / 2 == a * (1#2) + b * (1#2))%Q) by (intros; field).
    destruct (Qlt_le_dec (coord obj x) (coord obj y)).
    + split; [exists x|exists y]; (split; [auto|rewrite D; lra]).
    + split; [exists y|exists x]; (split; [auto|rewrite D; lra]).
Qed.

Lemma nonempty_filter {A} (p : A -> bool) l x : In x l -> p x = true -> 0 < length (filter p l).
Proof. intros I P. assert (H : In x (filter p l)) by (apply filter_In; auto). destruct (filter p l); [destruct H|simpl; lia]. Qed.
Lemma empty_filter {A} (p : A -> bool) l : length (filter p l) = 0 -> forall x, In x l -> p x = false.
Proof. intros E x I. destruct (p x) eqn:P; auto. pose proof (nonempty_filter p l x I P). lia. Qed.

Lemma above_a_in o md l x : In x (above_a o md l) <-> In x l /\ (md <= coord o x)%Q.
Proof. unfold above_a. rewrite filter_In, Qle_bool_iff. tauto. Qed.
Lemma below_a_in o md l x : In x (below_a o md l) <-> In x l /\ (coord o x < md)%Q.
Proof. unfold below_a. rewrite filter_In, Qltb_lt. tauto. Qed.
Lemma above_b_in o md l x : In x (above_b o md l) <-> In x l /\ (md < coord o x)%Q.
Proof. unfold above_b. rewrite filter_In, Qltb_lt. tauto. Qed.
Lemma below_b_in o md l x : In x (below_b o md l) <-> In x l /\ (coord o x <= md)%Q.
Proof. unfold below_b. rewrite filter_In, Qle_bool_iff. tauto. Qed.

Lemma above_a_pos o md (l : list key) x : In x l -> (md <= coord o x)%Q -> 0 < length (above_a o md l).
Proof. intros I H. eapply nonempty_filter; [exact I|]. apply Qle_bool_iff. auto. Qed.
Lemma below_a_pos o md (l : list key) x : In x l -> (coord o x < md)%Q -> 0 < length (below_a o md l).
Proof. intros I H. eapply nonempty_filter; [exact I|]. apply Qltb_lt. auto. Qed.
Lemma above_b_pos o md (l : list key) x : In x l -> (md < coord o x)%Q -> 0 < length (above_b o md l).
Proof. intros I H. eapply nonempty_filter; [exact I|]. apply Qltb_lt. auto. Qed.
Lemma below_b_pos o md (l : list key) x : In x l -> (coord o x <= md)%Q -> 0 < length (below_b o md l).
Proof. intros I H. eapply nonempty_filter; [exact I|]. apply Qle_bool_iff. auto. Qed.

(** A list cut in two: what splitA and splitB guarantee. *)
Definition cut (obj : nat) (l hi lo : list key) : Prop :=
  length hi + length lo = length l /\ (forall x, In x l <-> In x hi \/ In x lo) /\
  (sorted l -> sorted hi /\ sorted lo).

Lemma cut_a_ok obj md l : cut obj l (above_a obj md l) (below_a obj md l).
Proof.
  split; [apply cut_a|]. split; [|intro H; split; apply SS_filter; auto].
  intro x. rewrite above_a_in, below_a_in. split; [|tauto]. intro I. destruct (Qlt_le_dec (coord obj x) md); tauto.
Qed.
Lemma cut_b_ok obj md l : cut obj l (above_b obj md l) (below_b obj md l).
Proof.
  split; [apply cut_b|]. split; [|intro H; split; apply SS_filter; auto].
  intro x. rewrite above_b_in, below_b_in. split; [|tauto]. intro I. destruct (Qlt_le_dec md (coord obj x)); tauto.
Qed.

Lemma splitA_ok l obj hi lo : splitA l obj = (hi, lo) -> 
  (exists x y, In x l /\ In y l /\ (coord obj x < coord obj y)%Q) ->
  cut obj l hi lo /\ 0 < length hi /\ 0 < length lo /\
  (forall x y, In x hi -> In y lo -> (coord obj y < coord obj x)%Q).
Proof.
  unfold splitA, zlen. intros E (u & v & Iu & Iv & UV). set (md := median obj l) in *.
  assert (N : l <> []) by (intros ->; destruct Iu).
  destruct (median_between obj l N) as [(x1 & Ix1 & X1) (x2 & Ix2 & X2)]. fold md in X1, X2.
  pose proof (cut_a obj md l) as Ca. pose proof (cut_b obj md l) as Cb.
  assert (Pa : 0 < length (above_a obj md l)) by (eapply nonempty_filter; [exact Ix2|apply Qle_bool_iff; auto]).
  assert (Pb : 0 < length (below_b obj md l)) by (eapply nonempty_filter; [exact Ix1|apply Qle_bool_iff; auto]).
  assert (NE : 0 < length (below_a obj md l) \/ 0 < length (above_b obj md l)).
  { destruct (Qlt_le_dec (coord obj u) md) as [H|H].
    - left. eapply nonempty_filter; [exact Iu|apply Qltb_lt; auto].
    - right. eapply nonempty_filter; [exact Iv|apply Qltb_lt; lra]. }
  destruct (_ <=? _)%Z eqn:B.
  - apply Z.leb_le in B. inversion E; subst hi lo. clear E. split; [apply cut_a_ok|].
    split; [auto|]. split; [lia|]. intros x y Ix Iy. apply above_a_in in Ix. apply below_a_in in Iy. lra.
  - apply Z.leb_gt in B. inversion E; subst hi lo. clear E. split; [apply cut_b_ok|].
    split; [lia|]. split; [auto|]. intros x y Ix Iy. apply above_b_in in Ix. apply below_b_in in Iy. lra.
Qed.

Lemma splitB_ok best worst obj b1 b2 w1 w2 : splitB best worst obj = (b1, b2, w1, w2) ->
  best <> [] -> worst <> [] ->
  (exists x y, In x best /\ In y worst /\ (coord obj x < coord obj y)%Q) ->
  cut obj best b1 b2 /\ cut obj worst w1 w2 /\
  0 < length b1 + length w1 /\ 0 < length b2 + length w2 /\
  (forall x y, In x b1 -> In y w2 -> (coord obj y < coord obj x)%Q) /\
  (forall x y, In x b2 -> In y w1 -> (coord obj x < coord obj y)%Q).
Proof.
  unfold splitB, zlen. intros E Nb Nw (u & v & Iu & Iv & UV).
  set (L := if length worst <? length best then best else worst) in *. set (md := median obj L) in *.
  assert (N : L <> []) by (unfold L; destruct (_ <? _); auto).
  destruct (median_between obj L N) as [(x1 & Ix1 & X1) (x2 & Ix2 & X2)]. fold md in X1, X2.
  pose proof (cut_a obj md best) as Ca. pose proof (cut_b obj md best) as Cb.
  pose proof (cut_a obj md worst) as Ca'. pose proof (cut_b obj md worst) as Cb'.
  assert (InL : forall x, In x L -> In x best \/ In x worst) by (unfold L; destruct (_ <? _); auto).
  assert (Pa : 0 < length (above_a obj md best) + length (above_a obj md worst)).
  { destruct (InL _ Ix2) as [I|I]; pose proof (above_a_pos obj md _ x2 I X2); lia. }
  assert (Pb : 0 < length (below_b obj md best) + length (below_b obj md worst)).
  { destruct (InL _ Ix1) as [I|I]; pose proof (below_b_pos obj md _ x1 I X1); lia. }
  assert (NE : 0 < length (below_a obj md best) + length (below_a obj md worst) \/ 0 < length (above_b obj md best) + length (above_b obj md worst)).
  { destruct (Qlt_le_dec (coord obj u) md) as [H|H].
    - left. pose proof (below_a_pos obj md best u Iu H). lia.
    - right. assert (H' : (md < coord obj v)%Q) by lra. pose proof (above_b_pos obj md worst v Iv H'). lia. }
  destruct (_ <=? _)%Z eqn:B.
  - apply Z.leb_le in B. inversion E; subst b1 b2 w1 w2. clear E. split; [apply cut_a_ok|]. split; [apply cut_a_ok|].
    split; [auto|]. split; [lia|]. split.
    + intros x y Ix Iy. apply above_a_in in Ix. apply below_a_in in Iy. lra.
    + intros x y Ix Iy. apply below_a_in in Ix. apply above_a_in in Iy. lra.
  - apply Z.leb_gt in B. inversion E; subst b1 b2 w1 w2. clear E. split; [apply cut_b_ok|]. split; [apply cut_b_ok|].
    split; [lia|]. split; [auto|]. split.
    + intros x y Ix Iy. apply above_b_in in Ix. apply below_b_in in Iy. lra.
    + intros x y Ix Iy. apply below_b_in in Ix. apply above_b_in in Iy. lra.
Qed.

Lemma fold_min r : forall x, let v := fold_left (fun a b => if Qltb b a then b else a) r x in
  (In v (x :: r)) /\ forall y, In y (x :: r) -> (v <= y)%Q.
Proof.
  induction r as [|a r IH]; intros x; cbn [fold_left].
  - split; [simpl; auto|]. intros y [<-|[]]. lra.
  - destruct (IH (if Qltb a x then a else x)) as [I L]. destruct (Qltb a x) eqn:E.
    + apply Qltb_lt in E. split; [simpl in *; tauto|]. intros y [<-|[<-|Y]].
      * specialize (L a (or_introl eq_refl)). simpl in *. lra.
      * apply L. simpl. auto.
      * apply L. simpl. auto.
    + apply Qltb_false in E. split; [simpl in *; tauto|]. intros y [<-|[<-|Y]].
      * apply L. simpl. auto.
      * specialize (L x (or_introl eq_refl)). simpl in *. lra.
      * apply L. simpl. auto.
Qed.
Lemma fold_max r : forall x, let v := fold_left (fun a b => if Qltb a b then b else a) r x in
  (In v (x :: r)) /\ forall y, In y (x :: r) -> (y <= v)%Q.
Proof.
  induction r as [|a r IH]; intros x; cbn [fold_left].
  - split; [simpl; auto|]. intros y [<-|[]]. lra.
  - destruct (IH (if Qltb x a then a else x)) as [I L]. destruct (Qltb x a) eqn:E.
    + apply Qltb_lt in E. split; [simpl in *; tauto|]. intros y [<-|[<-|Y]].
      * specialize (L a (or_introl eq_refl)). simpl in *. lra.
      * apply L. simpl. auto.
      * apply L. simpl. auto.
    + apply Qltb_false in E. split; [simpl in *; tauto|]. intros y [<-|[<-|Y]].
      * apply L. simpl. auto.
      * specialize (L x (or_introl eq_refl)). simpl in *. lra.
      * apply L. simpl. auto.
Qed.
Lemma obj_min_spec o l : l <> [] -> (exists x, In x l /\ coord o x = obj_min o l) /\ forall x, In x l -> (obj_min o l <= coord o x)%Q.
Proof.
  intro N. unfold obj_min. destruct l as [|a l]; [congruence|]. cbn [map].
  destruct (fold_min (map (coord o) l) (coord o a)) as [I L]. split.
  - rewrite <- (map_cons (coord o) a l) in I. apply in_map_iff in I. destruct I as (x & E & I). exists x. auto.
  - intros x X. apply L. rewrite <- (map_cons (coord o) a l). apply in_map. auto.
Qed.
Lemma obj_max_spec o l : l <> [] -> (exists x, In x l /\ coord o x = obj_max o l) /\ forall x, In x l -> (coord o x <= obj_max o l)%Q.
Proof.
  intro N. unfold obj_max. destruct l as [|a l]; [congruence|]. cbn [map].
  destruct (fold_max (map (coord o) l) (coord o a)) as [I L]. split.
  - rewrite <- (map_cons (coord o) a l) in I. apply in_map_iff in I. destruct I as (x & E & I). exists x. auto.
  - intros x X. apply L. rewrite <- (map_cons (coord o) a l). apply in_map. auto.
Qed.

(** ** Direct comparison *)
Lemma qeqs_spec a : forall b, qeqs a b = true <-> Forall2 Qeq a b.
Proof.
  induction a as [|x a IH]; intros [|y b]; simpl; split; intro H; try discriminate; try constructor; try (inversion H; fail).
  - apply andb_true_iff in H. destruct H. apply Qeq_bool_iff. auto.
  - apply andb_true_iff in H. destruct H. apply IH. auto.
  - inversion H; subst. apply andb_true_iff. split; [apply Qeq_bool_iff; auto|apply IH; auto].
Qed.

Lemma nth_firstn {A} k (l : list A) i d : i < k -> nth i (firstn k l) d = nth i l d.
Proof.
  revert l i. induction k; intros l i H; [lia|]. destruct l; simpl; [destruct i; auto|]. destruct i; auto. apply IHk. lia.
Qed.
Lemma firstn_length_wf m k a : wf m a -> k <= m -> length (firstn k a) = k.
Proof. intros [L _] H. rewrite firstn_length. lia. Qed.

Lemma Forall2_coord (R : Q -> Q -> Prop) a b : length a = length b ->
  (Forall2 R a b <-> forall i, i < length a -> R (coord i a) (coord i b)).
Proof.
  revert b. induction a as [|x a IH]; intros [|y b] L; simpl in L; try discriminate.
  - split; [intros _ i H; simpl in H; lia|constructor].
  - split.
    + intro F. inversion F; subst. intros [|i] Hi; simpl; auto. unfold coord. simpl. apply (proj1 (IH b ltac:(lia))); auto. simpl in Hi. lia.
    + intro H. constructor; [apply (H 0); simpl; lia|]. apply IH; [lia|]. intros i Hi. apply (H (S i)). simpl. lia.
Qed.

Lemma isDominated_coord a b : length a = length b ->
  (isDominated a b = true <-> (forall i, i < length a -> (coord i a <= coord i b)%Q) /\ exists i, i < length a /\ (coord i a < coord i b)%Q).
Proof.
  intro L. rewrite isDominated_spec by auto. unfold dominates. rewrite (Forall2_coord Qle a b L).
  split; intros [H K]; (split; [exact H|]).
  - destruct K as (i & x & y & E1 & E2 & D). exists i. split; [apply nth_error_Some; congruence|].
    unfold coord. erewrite !nth_error_nth by eauto. auto.
  - destruct K as (i & Hi & D). exists i, (coord i b), (coord i a). split; [|split; auto]; apply nth_error_nth'; lia.
Qed.

Lemma covers_spec m k li hi : wf m li -> wf m hi -> k <= m -> (covers k li hi = true <-> gek k li hi).
Proof.
  intros Wl Wh K. pose proof (firstn_length_wf m k li Wl K) as L1. pose proof (firstn_length_wf m k hi Wh K) as L2.
  unfold covers. rewrite orb_true_iff, isDominated_coord by congruence. rewrite qeqs_spec, Forall2_coord by congruence.
  rewrite L2. unfold gek.
  assert (C : forall i (l : key), i < k -> coord i (firstn k l) = coord i l) by (intros; apply nth_firstn; auto).
  split.
  - intros [[H _]|H] i Hi; specialize (H i Hi); rewrite !C in H by auto; auto. lra.
  - intro G. destruct (Forall_Exists_dec (fun i => coord i li <= coord i hi)%Q (fun i => match Qlt_le_dec (coord i hi) (coord i li) with left H => right (Qlt_not_le _ _ H) | right H => left H end) (seq 0 k)) as [F|E].
    + right. intros i Hi. rewrite !C by auto. rewrite Forall_forall in F. specialize (F i ltac:(apply in_seq; lia)). specialize (G i Hi). lra.
    + left. split; [intros i Hi; rewrite !C by auto; auto|]. apply Exists_exists in E. destruct E as (i & I & E). apply in_seq in I.
      exists i. split; [lia|]. rewrite !C by lia. lra.
Qed.

Section Helpers.
Context (m : nat) (Hm : 2 <= m).
Notation wfl := (Forall (wf m)).

Lemma inner_ok k h f : wf m h -> k <= m -> forall best, wfl best -> ~ In h best ->
  forall P fr, ismax (f h) (fun l => In l P /\ gek k l h) f (fr h) -> (forall x, x <> h -> fr x = f x) ->
  let fr' := directB1 k best fr h in
  ismax (f h) (fun l => In l (P ++ best) /\ gek k l h) f (fr' h) /\ (forall x, x <> h -> fr' x = f x).
Proof.
  intros Wh K. induction best as [|l best IH]; intros Wb N P fr I O; cbn [directB1 fold_left].
  - rewrite app_nil_r. auto.
  - inversion Wb as [|? ? Wl Wb']; subst. simpl in N.
    replace (P ++ l :: best) with ((P ++ [l]) ++ best) by (rewrite <- app_assoc; auto).
    apply IH; [auto|tauto| |].
    + destruct (covers k l h) eqn:C.
      * apply (covers_spec m) in C; auto. rewrite dset_same. rewrite (O l) by (intro; subst; tauto).
        destruct I as (A & B & D). split; [lia|]. split.
        -- intros y [Y G]. apply in_app_iff in Y. destruct Y as [Y|[<-|[]]]; [|lia]. specialize (B y (conj Y G)). lia.
        -- destruct (Nat.max_spec (fr h) (f l + 1)) as [[_ ->]|[_ ->]].
           ++ right. exists l. split; [split; [apply in_app_iff; simpl; auto|auto]|auto].
           ++ destruct D as [D|(y & [Y G] & D)]; [auto|]. right. exists y. split; [split; [apply in_app_iff; auto|auto]|auto].
      * eapply ismax_ext; [exact I| |auto]. intro y. rewrite in_app_iff. simpl. split; [tauto|].
        intros [[Y|[<-|[]]] G]; [auto|]. apply (covers_spec m) in G; auto. congruence.
    + intros x X. destruct (covers k l h); [rewrite dset_other by auto|]; auto.
Qed.

Lemma directB_inv k best f : k <= m -> wfl best -> forall worst, wfl worst ->
  (forall x, In x best -> ~ In x worst) -> NoDup worst ->
  forall W fr, (forall x, In x best -> ~ In x W) -> (forall x, In x worst -> ~ In x W) ->
    (forall x, ~ In x W -> fr x = f x) -> (forall x, In x W -> ismax (f x) (fun l => In l best /\ gek k l x) f (fr x)) ->
  let fr' := directB k best worst fr in
  (forall x, ~ In x (W ++ worst) -> fr' x = f x) /\
  (forall x, In x (W ++ worst) -> ismax (f x) (fun l => In l best /\ gek k l x) f (fr' x)).
Proof.
  intros K Wb. induction worst as [|h worst IH]; intros Ww Dis ND W fr DW DW' I1 I2; cbn [directB fold_left].
  - rewrite app_nil_r. auto.
  - inversion Ww as [|? ? Wh Ww']; subst. apply NoDup_cons_iff in ND. destruct ND as [Nh ND].
    assert (Nb : ~ In h best) by (intro Z; apply (Dis h Z); simpl; auto).
    assert (NW : ~ In h W) by (apply DW'; simpl; auto).
    assert (Fb : forall x, In x best -> fr x = f x) by (intros x X; apply I1; auto).
    destruct (inner_ok k h fr Wh K best Wb Nb [] fr) as [J1 J2].
    { apply ismax_none. intros y [[] _]. } { auto. }
    set (fr1 := directB1 k best fr h) in *. change (fold_left (directB1 k best) worst fr1) with (directB k best worst fr1).
    replace (W ++ h :: worst) with ((W ++ [h]) ++ worst) by (rewrite <- app_assoc; auto).
    apply IH; auto.
    + intros x X Z. apply (Dis x X). simpl. auto.
    + intros x X Z. apply in_app_iff in Z. destruct Z as [Z|[<-|[]]]; [exact (DW x X Z)|auto].
    + intros x X Z. apply in_app_iff in Z. destruct Z as [Z|[<-|[]]]; [exact (DW' x (or_intror X) Z)|auto].
    + intros x X. rewrite in_app_iff in X. simpl in X. rewrite J2 by (intro; subst; tauto). apply I1. tauto.
    + intros x X. apply in_app_iff in X. destruct X as [X|[<-|[]]].
      * rewrite J2 by (intro; subst; tauto). auto.
      * rewrite <- (I1 h NW). eapply ismax_ext; [exact J1| |].
        -- intro y. rewrite app_nil_l. tauto.
        -- intros y [Y _]. apply Fb. exact Y.
Qed.

Lemma directB_ok obj best worst f : obj + 1 <= m -> wfl best -> wfl worst -> (forall x, In x best -> ~ In x worst) -> NoDup worst ->
  B_post obj best worst f (directB (obj + 1) best worst f).
Proof.
  intros K Wb Ww Dis ND.
  destruct (directB_inv (obj + 1) best f K Wb worst Ww Dis ND [] f) as [A B]; auto.
  - intros x [].
  - split; auto.
Qed.

Lemma B_none obj best worst f : (forall l h, In l best -> In h worst -> ~ gek (obj + 1) l h) -> B_post obj best worst f f.
Proof. intro N. split; [auto|]. intros x X. apply ismax_none. intros y [Y G]. exact (N y x Y X G). Qed.

Lemma wfl_cut obj l hi lo : cut obj l hi lo -> wfl l -> wfl hi /\ wfl lo.
Proof.
  intros (_ & I & _) W. rewrite !Forall_forall in *. split; intros x X; apply W, I; auto.
Qed.

(** ** sortNDHelperB *)
Lemma helperB_ok : forall fuel best worst obj f, 1 <= obj < m -> length best + length worst + obj <= fuel ->
  sorted best -> sorted worst -> wfl best -> wfl worst -> (forall x, In x best -> ~ In x worst) ->
  exists f', helperB fuel best worst obj f = Done f' /\ B_post obj best worst f f'.
Proof.
  induction fuel as [|fuel IH]; intros best worst obj f O Fu Sb Sw Wb Ww Dis; [lia|]. cbn [helperB].
  destruct ((length worst =? 0) || (length best =? 0)) eqn:E0.
  { exists f. split; [auto|]. apply B_none. apply orb_true_iff in E0.
    intros l h Il Ih _. destruct E0 as [E|E]; apply Nat.eqb_eq, length_zero_iff_nil in E; subst; auto. }
  apply orb_false_iff in E0. destruct E0 as [Ew Eb]. apply Nat.eqb_neq in Ew, Eb.
  assert (Nb : best <> []) by (intros ->; auto). assert (Nw : worst <> []) by (intros ->; auto).
  destruct ((length best =? 1) || (length worst =? 1)).
  { eexists. split; [reflexivity|]. apply directB_ok; auto; [lia|]. apply sorted_NoDup; auto. }
  destruct (obj =? 0) eqn:Z; [apply Nat.eqb_eq in Z; lia|].
  destruct (obj =? 1) eqn:O1.
  { apply Nat.eqb_eq in O1. subst obj. eexists. split; [reflexivity|]. apply (sweepB_ok m); auto. }
  apply Nat.eqb_neq in O1.
  destruct (obj_min_spec obj best Nb) as [(bm & Ibm & Ebm) Lbm]. destruct (obj_max_spec obj best Nb) as [(bM & IbM & EbM) LbM].
  destruct (obj_min_spec obj worst Nw) as [(wm & Iwm & Ewm) Lwm]. destruct (obj_max_spec obj worst Nw) as [(wM & IwM & EwM) LwM].
  destruct (Qle_bool (obj_max obj worst) (obj_min obj best)) eqn:C1.
  { apply Qle_bool_iff in C1. destruct (IH best worst (obj - 1) f) as (f' & E & P1 & P2); auto; try lia.
    exists f'. split; [auto|]. split; [auto|]. intros x X. eapply ismax_ext; [apply (P2 x X)| |auto].
    intro y. unfold B_rel. replace (obj - 1 + 1) with obj by lia. split; intros [Y G]; (split; [auto|]).
    - intros i Hi. destruct (Nat.eq_dec i obj) as [->|]; [|apply G; lia]. specialize (Lbm y Y). specialize (LwM x X). lra.
    - intros i Hi. apply G. lia. }
  apply Qle_bool_false in C1.
  destruct (Qle_bool (obj_min obj worst) (obj_max obj best)) eqn:C2.
  2:{ apply Qle_bool_false in C2. exists f. split; [auto|]. apply B_none. intros l h Il Ih G.
      specialize (G obj ltac:(lia)). specialize (LbM l Il). specialize (Lwm h Ih). lra. }
  destruct (splitB best worst obj) as [[[b1 b2] w1] w2] eqn:SP.
  destruct (splitB_ok _ _ _ _ _ _ _ SP Nb Nw) as (Cb & Cw & N1 & N2 & Up & Dn).
  { exists bm, wM. split; [auto|]. split; [auto|]. rewrite Ebm, EwM. lra. }
  assert (Cb' := Cb). assert (Cw' := Cw). destruct Cb' as (Lb & Ib & SSb), Cw' as (Lw & Iw & SSw).
  destruct (SSb Sb) as [Sb1 Sb2]. destruct (SSw Sw) as [Sw1 Sw2].
  destruct (wfl_cut _ _ _ _ Cb Wb) as [Wb1 Wb2]. destruct (wfl_cut _ _ _ _ Cw Ww) as [Ww1 Ww2].
  assert (D11 : forall x, In x b1 -> ~ In x w1) by (intros x A B; apply (Dis x); [apply Ib|apply Iw]; auto).
  assert (D12 : forall x, In x b1 -> ~ In x w2) by (intros x A B; apply (Dis x); [apply Ib|apply Iw]; auto).
  assert (D22 : forall x, In x b2 -> ~ In x w2) by (intros x A B; apply (Dis x); [apply Ib|apply Iw]; auto).
  destruct (IH b1 w1 obj f) as (f1 & E1 & P1 & Q1); auto; try lia.
  destruct (IH b1 w2 (obj - 1) f1) as (f2 & E2 & P2 & Q2); auto; try lia.
  destruct (IH b2 w2 obj f2) as (f3 & E3 & P3 & Q3); auto; try lia.
  rewrite E1. cbn [obind]. rewrite E2. cbn [obind]. rewrite E3. exists f3. split; [auto|].
  assert (Dw : forall x, In x w1 -> ~ In x w2).
  { pose proof (sorted_NoDup _ Sw) as ND. intros x A B.
    assert (NB1 : b1 = [] \/ exists y, In y b1) by (destruct b1; [auto|right; eexists; simpl; eauto]).
    clear -A B SP. unfold splitB in SP. destruct (_ <=? _)%Z; inversion SP; subst.
    - apply above_a_in in A. apply below_a_in in B. lra.
    - apply above_b_in in A. apply below_b_in in B. lra. }
  assert (Kb : forall x, In x best -> f1 x = f x /\ f2 x = f x /\ f3 x = f x).
  { intros x X. assert (N : ~ In x worst) by auto. rewrite Iw in N.
    rewrite P3 by tauto. rewrite P2 by tauto. rewrite P1 by tauto. auto. }
  split.
  - intros x N. rewrite Iw in N. rewrite P3 by tauto. rewrite P2 by tauto. apply P1. tauto.
  - intros x X. apply Iw in X. destruct X as [X|X].
    + rewrite P3, P2 by auto. eapply ismax_ext; [apply (Q1 x X)| |auto].
      intro y. unfold B_rel. split; intros [Y G]; (split; [|auto]); [apply Ib; auto|].
      apply Ib in Y. destruct Y as [Y|Y]; auto. specialize (Dn y x Y X). specialize (G obj ltac:(lia)). lra.
    + pose proof (Q2 x X) as M2. pose proof (Q3 x X) as M3. rewrite (P1 x) in M2 by (intro Z'; exact (Dw x Z' X)).
      assert (M2' : ismax (f x) (B_rel obj b1 x) f (f2 x)).
      { eapply ismax_ext; [exact M2| |].
        - intro y. unfold B_rel. replace (obj - 1 + 1) with obj by lia. split; intros [Y G]; (split; [auto|]).
          + intros i Hi. destruct (Nat.eq_dec i obj) as [->|]; [|apply G; lia]. specialize (Up y x Y X). lra.
          + intros i Hi. apply G. lia.
        - intros y [Y _]. apply Kb. apply Ib. auto. }
      assert (M3' : ismax (f2 x) (B_rel obj b2 x) f (f3 x)).
      { eapply ismax_ext; [exact M3|tauto|]. intros y [Y _]. apply Kb. apply Ib. auto. }
      eapply ismax_ext; [exact (ismax_union _ _ _ _ _ _ M2' M3')| |auto].
      intro y. unfold B_rel. rewrite Ib. tauto.
Qed.

(** ** sortNDHelperA *)
Lemma all_same_spec o l : l <> [] -> if all_same o l then forall x y, In x l -> In y l -> (coord o x == coord o y)%Q
  else exists x y, In x l /\ In y l /\ (coord o x < coord o y)%Q.
Proof.
  intro N. destruct l as [|a l]; [congruence|]. unfold all_same. destruct (forallb (fun y => Qeq_bool (coord o y) (coord o a)) l) eqn:E.
  - rewrite forallb_forall in E.
    assert (H : forall x, In x (a :: l) -> (coord o x == coord o a)%Q).
    { intros x [<-|I]; [lra|]. apply Qeq_bool_iff. auto. }
    intros x y X Y. rewrite (H x X), (H y Y). lra.
  - assert (X : exists x, In x l /\ Qeq_bool (coord o x) (coord o a) = false).
    { clear N. induction l as [|b l IH]; simpl in E; [discriminate|]. destruct (Qeq_bool (coord o b) (coord o a)) eqn:Eb.
      - destruct (IH E) as (x & I & H). exists x. simpl. auto.
      - exists b. simpl. auto. }
    destruct X as (x & I & H).
    assert (NE : ~ (coord o x == coord o a)%Q) by (intro Z; apply Qeq_bool_iff in Z; congruence).
    destruct (Q_dec (coord o x) (coord o a)) as [[D|D]|D]; [| |tauto].
    + exists x, a. simpl. auto.
    + exists a, x. simpl. auto.
Qed.

Lemma helperA_ok : forall fuel l obj f, 1 <= obj < m -> length l + obj < fuel ->
  sorted l -> wfl l -> same_above m obj l ->
  exists f', helperA fuel l obj f = Done f' /\ A_post obj l f f'.
Proof.
  induction fuel as [|fuel IH]; intros l obj f O Fu Sl Wl SA; [lia|]. cbn [helperA].
  destruct l as [|s1 [|s2 [|s3 r]]].
  - exists f. split; [auto|]. split; [auto|]. intros x [].
  - exists f. split; [auto|]. split; [auto|]. intros x [<-|[]]. apply ismax_none. intros y ([<-|[]] & _ & N). auto.
  - eexists. split; [reflexivity|].
    assert (W1 : wf m s1) by (inversion Wl; auto). assert (W2 : wf m s2) by (inversion Wl as [|? ? _ W']; inversion W'; auto).
    assert (B : before s1 s2) by (inversion Sl as [|? ? _ F]; inversion F; auto).
    assert (N : s1 <> s2) by (intros ->; exact (before_irrefl _ B)).
    assert (ND : ~ gek (obj + 1) s2 s1).
    { intro G. apply (before_asym s1 s2); [destruct W1, W2; congruence|auto|]. apply (before_gek m); auto.
      eapply (gek_extend m Hm obj [s1; s2]); simpl; auto. }
    assert (DD : isDominated (firstn (obj + 1) s2) (firstn (obj + 1) s1) = true <-> gek (obj + 1) s1 s2).
    { assert (C : covers (obj + 1) s1 s2 = true <-> gek (obj + 1) s1 s2) by (apply (covers_spec m); auto; lia).
      rewrite <- C. unfold covers. rewrite orb_true_iff. split; [auto|]. intros [H|H]; [auto|]. exfalso.
      apply ND. rewrite qeqs_spec, Forall2_coord in H by (rewrite !(firstn_length_wf m); auto; lia).
      rewrite (firstn_length_wf m) in H by (auto; lia). intros i Hi. specialize (H i Hi).
      unfold coord in *. rewrite !nth_firstn in H by auto. lra. }
    set (b := isDominated _ _) in *.
    assert (E : forall x, x <> s2 -> (if b then dset f s2 (Nat.max (f s2) (f s1 + 1)) else f) x = f x).
    { intros x X. destruct b; auto. apply dset_other. auto. }
    split.
    + intros x X. apply E. intros ->. apply X. simpl. auto.
    + intros x [<-|[<-|[]]].
      * rewrite E by auto. apply ismax_none. intros y ([<-|[<-|[]]] & G & Ny); auto.
      * destruct b.
        -- assert (G : gek (obj + 1) s1 s2) by (apply DD; auto). rewrite dset_same.
           split; [lia|]. split.
           ++ intros y ([<-|[<-|[]]] & _ & Ny); [|congruence]. rewrite dset_other by auto. lia.
           ++ destruct (Nat.max_spec (f s2) (f s1 + 1)) as [[_ ->]|[_ ->]]; [|auto]. right. exists s1.
              split; [split; [simpl; auto|auto]|]. rewrite dset_other by auto. auto.
        -- apply ismax_none. intros y ([<-|[<-|[]]] & G & Ny); [|congruence]. apply DD in G. discriminate.
  - set (l := s1 :: s2 :: s3 :: r) in *.
    assert (N : l <> []) by discriminate.
    destruct (obj =? 0) eqn:Z; [apply Nat.eqb_eq in Z; lia|].
    destruct (obj =? 1) eqn:O1.
    { apply Nat.eqb_eq in O1. subst obj. eexists. split; [reflexivity|]. apply (sweepA_ok m); auto. }
    apply Nat.eqb_neq in O1. pose proof (all_same_spec obj l N) as AS. destruct (all_same obj l).
    { destruct (IH l (obj - 1) f) as (f' & E & P & Q); auto; try lia.
      { intros a b i Ia Ib Hi. destruct (Nat.eq_dec i obj) as [->|]; [auto|]. apply SA; auto; lia. }
      exists f'. split; [auto|]. split; [auto|]. intros x X. eapply ismax_ext; [apply (Q x X)| |auto].
      intro y. unfold A_rel. replace (obj - 1 + 1) with obj by lia. split; intros (Y & G & Ny); (split; [auto|split; [|auto]]).
      - intros i Hi. destruct (Nat.eq_dec i obj) as [->|]; [|apply G; lia]. rewrite (AS y x Y X). lra.
      - intros i Hi. apply G. lia. }
    destruct (splitA l obj) as [best worst] eqn:SP.
    destruct (splitA_ok _ _ _ _ SP AS) as (C & Nb & Nw & Up). assert (C' := C). destruct C' as (Ll & Il & SS).
    destruct (SS Sl) as [Sb Sw]. destruct (wfl_cut _ _ _ _ C Wl) as [Wb Ww].
    assert (Dis : forall x, In x best -> ~ In x worst) by (intros x A B; specialize (Up x x A B); lra).
    assert (SAb : same_above m obj best) by (intros a b i Ia Ib; apply SA; apply Il; auto).
    assert (SAw : same_above m obj worst) by (intros a b i Ia Ib; apply SA; apply Il; auto).
    destruct (IH best obj f) as (f1 & E1 & P1 & Q1); auto; [lia|].
    destruct (helperB_ok (length best + length worst + obj) best worst (obj - 1) f1) as (f2 & E2 & P2 & Q2); auto; [lia|lia|].
    destruct (IH worst obj f2) as (f3 & E3 & P3 & Q3); auto; [lia|].
    rewrite E1. cbn [obind]. rewrite E2. cbn [obind]. rewrite E3. exists f3. split; [auto|].
    assert (Kb : forall x, In x best -> f3 x = f1 x) by (intros x X; rewrite P3, P2 by auto; auto).
    split.
    + intros x X. rewrite Il in X. rewrite P3, P2, P1 by tauto. auto.
    + intros x X. apply Il in X. destruct X as [X|X].
      * rewrite Kb by auto. eapply ismax_ext; [apply (Q1 x X)| |].
        -- intro y. unfold A_rel. rewrite Il. split; [tauto|]. intros ([Y|Y] & G & Ny); [tauto|].
           specialize (Up x y X Y). specialize (G obj ltac:(lia)). lra.
        -- intros y (Y & _). symmetry. auto.
      * pose proof (Q2 x X) as M2. rewrite (P1 x) in M2 by (intro Z'; exact (Dis x Z' X)).
        assert (M2' : ismax (f x) (A_rel obj best x) f3 (f2 x)).
        { eapply ismax_ext; [exact M2| |].
          - intro y. unfold B_rel, A_rel. replace (obj - 1 + 1) with obj by lia. split.
            + intros [Y G]. split; [auto|]. split; [|intro; subst; exact (Dis x Y X)].
              intros i Hi. destruct (Nat.eq_dec i obj) as [->|]; [|apply G; lia]. specialize (Up y x Y X). lra.
            + intros (Y & G & _). split; [auto|]. intros i Hi. apply G. lia.
          - intros y [Y _]. symmetry. auto. }
        eapply ismax_ext; [exact (ismax_union _ _ _ _ _ _ M2' (Q3 x X))| |auto].
        intro y. unfold A_rel. rewrite Il. tauto.
Qed.

End Helpers.
