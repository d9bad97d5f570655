(** Python's sort: permutation, sortedness, and sorting of members with not-yet-known values. *)
From Coq Require Import List Arith ZArith QArith Bool Permutation Sorted Lia.
From Verif Require Import Base BaseFacts Space_Model Opt_Model Opt_Facts AEO_Model AEO_Spec.
Import ListNotations.
Open Scope nat_scope.

Lemma insert_at_perm {A} i (x : A) l : Permutation (insert_at i x l) (x :: l).
Proof. unfold insert_at. rewrite <- (firstn_skipn i l) at 3. symmetry. apply Permutation_middle. Qed.
Lemma bin_insert_perm {A} lt (l : list A) x : Permutation (bin_insert lt l x) (x :: l).
Proof. apply insert_at_perm. Qed.
Lemma fold_insert_perm {A} lt (rest : list A) : forall acc, Permutation (fold_left (bin_insert lt) rest acc) (acc ++ rest).
Proof.
  induction rest as [|x r IH]; intros acc; cbn; [rewrite app_nil_r; reflexivity|].
  rewrite IH, bin_insert_perm. cbn. apply Permutation_middle.
Qed.
Lemma pysort_perm {A} lt (l : list A) : Permutation (pysort lt l) l.
Proof.
  destruct l as [|x [|y r]]; [reflexivity | reflexivity|]. unfold pysort.
  destruct (lt y x).
  - rewrite fold_insert_perm, <- Permutation_rev, firstn_skipn. reflexivity.
  - rewrite fold_insert_perm, firstn_skipn. reflexivity.
Qed.
Lemma pysort_rev_perm {A} lt (l : list A) : Permutation (pysort_rev lt l) l.
Proof. unfold pysort_rev. rewrite <- Permutation_rev, pysort_perm. symmetry. apply Permutation_rev. Qed.

(** ** Only later elements are compared with earlier ones *)
Section Ext.
Context {A : Type} (lt lt' : A -> A -> bool).
Let agree x y := lt y x = lt' y x.
Lemma bisect_ext d s p fuel : (forall x, In x s -> agree x p) -> forall lo hi, hi <= length s ->
  bisect_pos lt fuel d s p lo hi = bisect_pos lt' fuel d s p lo hi.
Proof.
  intros H. induction fuel as [|f IH]; intros lo hi Hh; [reflexivity|]. cbn [bisect_pos].
  destruct (lo <? hi) eqn:E; [|reflexivity]. apply Nat.ltb_lt in E.
  assert (Hm : lo + (hi - lo) / 2 < hi) by (pose proof (Nat.div_lt (hi - lo) 2); lia).
  rewrite (H (nth (lo + (hi - lo) / 2) s d)) by (apply nth_In; lia).
  destruct (lt' p _); apply IH; lia.
Qed.
Lemma fold_insert_ext rest : forall acc, (forall x y, In x acc -> In y rest -> agree x y) -> ForallOrdPairs agree rest ->
  fold_left (bin_insert lt) rest acc = fold_left (bin_insert lt') rest acc.
Proof.
  induction rest as [|y r IH]; intros acc H Ho; [reflexivity|]. cbn [fold_left].
  inversion Ho as [|? ? Hy Hr]; subst.
  replace (bin_insert lt acc y) with (bin_insert lt' acc y).
  2:{ unfold bin_insert. f_equal. symmetry. apply bisect_ext; auto. intros x Hx. apply H; auto. now left. }
  apply IH; auto. intros x z Hx Hz. apply (Permutation_in _ (bin_insert_perm lt' acc y)) in Hx.
  destruct Hx as [-> | Hx]; [|apply H; auto; now right].
  rewrite Forall_forall in Hy. auto.
Qed.
Lemma run_up_ext l : forall x, ForallOrdPairs agree (x :: l) -> run_up lt x l = run_up lt' x l.
Proof.
  induction l as [|y r IH]; intros x H; [reflexivity|]. cbn.
  inversion H as [|? ? Hx Hr]; subst. inversion Hx as [|? ? Hxy _]; subst. rewrite Hxy, (IH y Hr). reflexivity.
Qed.
Lemma run_down_ext l : forall x, ForallOrdPairs agree (x :: l) -> run_down lt x l = run_down lt' x l.
Proof.
  induction l as [|y r IH]; intros x H; [reflexivity|]. cbn.
  inversion H as [|? ? Hx Hr]; subst. inversion Hx as [|? ? Hxy _]; subst. rewrite Hxy, (IH y Hr). reflexivity.
Qed.
Lemma FOP_app (R : A -> A -> Prop) a b : ForallOrdPairs R (a ++ b) ->
  ForallOrdPairs R b /\ forall x y, In x a -> In y b -> R x y.
Proof.
  induction a as [|u a IH]; cbn; intros H; [split; [auto | intros ? ? []]|].
  inversion H as [|? ? Hu Hr]; subst. destruct (IH Hr) as [H1 H2]. split; auto.
  intros x y [<- | Hx] Hy; auto. rewrite Forall_forall in Hu. apply Hu, in_or_app. auto.
Qed.
Lemma pysort_ext l : ForallOrdPairs agree l -> pysort lt l = pysort lt' l.
Proof.
  intros H. destruct l as [|x [|y r]]; [reflexivity | reflexivity|]. unfold pysort.
  assert (Hxy : lt y x = lt' y x) by (inversion H as [|? ? Hx _]; subst; inversion Hx; subst; auto).
  rewrite Hxy, run_up_ext, run_down_ext by auto.
  set (n := if lt' y x then _ else _).
  pose proof H as H'. rewrite <- (firstn_skipn n (x :: y :: r)) in H'. apply FOP_app in H' as [H1 H2].
  apply fold_insert_ext; auto. intros u v Hu Hv. apply H2; auto.
  destruct (lt' y x); auto. apply in_rev; auto.
Qed.
End Ext.

(** ** Sorting with a strict weak order *)
Section Weak.
Context {A : Type} (lt : A -> A -> bool).
Definition le (a b : A) : Prop := lt b a = false.
Context (asym : forall a b, lt a b = true -> le a b).
Context (trans : forall a b c, le a b -> le b c -> le a c).

Lemma le_lt_trans a b c : le a b -> lt b c = true -> lt a c = true.
Proof.
  intros H1 H2. destruct (lt a c) eqn:E; auto. assert (H := trans _ _ _ E H1). unfold le in H. congruence.
Qed.
Lemma lt_le_trans a b c : lt a b = true -> le b c -> lt a c = true.
Proof.
  intros H1 H2. destruct (lt a c) eqn:E; auto. assert (H := trans _ _ _ H2 E). unfold le in H. congruence.
Qed.

Lemma bisect_spec d s p fuel : StronglySorted le s -> forall lo hi, lo <= hi -> hi <= length s -> hi - lo <= fuel ->
  (forall i, i < lo -> le (nth i s d) p) -> (forall i, hi <= i -> i < length s -> lt p (nth i s d) = true) ->
  let k := bisect_pos lt fuel d s p lo hi in
  k <= length s /\ (forall i, i < k -> le (nth i s d) p) /\ (forall i, k <= i -> i < length s -> lt p (nth i s d) = true).
Proof.
  intros Hs.
  assert (Hmono : forall i j, i <= j -> j < length s -> le (nth i s d) (nth j s d)).
  { clear -Hs asym. induction Hs as [|a r Hs IH Ha]; intros i j Hij Hj; cbn in *; [lia|].
    destruct j as [|j]; [assert (i = 0) by lia; subst; cbn; destruct (lt a a) eqn:E; [pose proof (asym _ _ E) as X; unfold le in X; congruence | exact E]|].
    destruct i as [|i]; cbn; [|apply IH; lia]. rewrite Forall_forall in Ha. apply Ha, nth_In. lia. }
  induction fuel as [|f IH]; intros lo hi Hlh Hh Hf Hlo Hhi; cbn [bisect_pos].
  - assert (lo = hi) by lia. subst. cbn. split; [lia | auto].
  - destruct (lo <? hi) eqn:E; [apply Nat.ltb_lt in E | apply Nat.ltb_ge in E].
    2:{ assert (lo = hi) by lia. subst. cbn. split; [lia | auto]. }
    cbn zeta. set (mid := lo + (hi - lo) / 2). assert (Hm : lo <= mid < hi) by (unfold mid; pose proof (Nat.div_lt (hi - lo) 2); lia).
    destruct (lt p (nth mid s d)) eqn:Em.
    + apply IH; auto; try lia. intros i Hi1 Hi2. apply (lt_le_trans _ (nth mid s d)); auto.
    + apply IH; auto; try lia. intros i Hi. apply (trans _ (nth mid s d)); auto. apply Hmono; lia.
Qed.
Lemma SS_app (R : A -> A -> Prop) a b : StronglySorted R a -> StronglySorted R b ->
  (forall x y, In x a -> In y b -> R x y) -> StronglySorted R (a ++ b).
Proof.
  induction 1 as [|x a Ha IH Hx]; intros Hb Hab; cbn; auto. constructor.
  - apply IH; auto. intros. apply Hab; auto. now right.
  - apply Forall_forall. intros y Hy. apply in_app_or in Hy as [Hy|Hy]; [|apply Hab; auto; now left].
    rewrite Forall_forall in Hx. auto.
Qed.
Lemma SS_app_inv (R : A -> A -> Prop) a b : StronglySorted R (a ++ b) ->
  StronglySorted R a /\ StronglySorted R b /\ (forall x y, In x a -> In y b -> R x y).
Proof.
  induction a as [|x a IH]; cbn; intros H; [split; [constructor | split; [auto | intros ? ? []]]|].
  inversion H as [|? ? Hr Hx]; subst. destruct (IH Hr) as (H1 & H2 & H3). rewrite Forall_forall in Hx. split; [|split]; auto.
  - constructor; auto. apply Forall_forall. intros y Hy. apply Hx, in_or_app. auto.
  - intros u v [<- | Hu] Hv; auto. apply Hx, in_or_app. auto.
Qed.
Lemma bin_insert_sorted s x : StronglySorted le s -> StronglySorted le (bin_insert lt s x).
Proof.
  intros Hs. unfold bin_insert, insert_at.
  destruct (bisect_spec x s x (length s) Hs 0 (length s)) as (H1 & H2 & H3); try lia.
  set (k := bisect_pos _ _ _ _ _ _ _) in *. clearbody k.
  rewrite <- (firstn_skipn k s) in Hs. apply SS_app_inv in Hs as (Ha & Hb & Hab).
  assert (Hk : length (firstn k s) = k) by (rewrite firstn_length; lia).
  assert (G1 : forall y, In y (firstn k s) -> le y x).
  { intros y Hy. apply (In_nth _ _ x) in Hy as (i & Hi & <-). rewrite Hk in Hi.
    specialize (H2 i Hi). rewrite <- (firstn_skipn k s), app_nth1 in H2 by lia. exact H2. }
  assert (G2 : forall y, In y (skipn k s) -> le x y).
  { intros y Hy. apply (In_nth _ _ x) in Hy as (i & Hi & <-). rewrite skipn_length in Hi.
    specialize (H3 (k + i)). rewrite <- (firstn_skipn k s), app_nth2 in H3 by lia.
    rewrite Hk in H3. replace (k + i - k) with i in H3 by lia. apply asym, H3; try lia.
    rewrite app_length, firstn_length, skipn_length. lia. }
  apply SS_app; auto.
  - constructor; auto. apply Forall_forall. auto.
  - intros u v Hu [<- | Hv]; auto.
Qed.
Lemma fold_insert_sorted rest : forall acc, StronglySorted le acc -> StronglySorted le (fold_left (bin_insert lt) rest acc).
Proof. induction rest as [|x r IH]; intros acc H; cbn; auto. apply IH, bin_insert_sorted, H. Qed.
Lemma run_up_sorted l : forall x, StronglySorted le (firstn (run_up lt x l) (x :: l)).
Proof.
  assert (G : forall l x, Sorted le (firstn (run_up lt x l) (x :: l))).
  { clear. induction l as [|y r IH]; intros x; cbn; [repeat constructor|].
    destruct (lt y x) eqn:E; [cbn; repeat constructor|]. cbn [firstn]. specialize (IH y).
    destruct (run_up lt y r) eqn:En; [destruct r as [|z r']; cbn in En; [|destruct (lt z y)]; discriminate|].
    cbn [firstn] in *. constructor; auto. }
  intros x. apply Sorted_StronglySorted; [exact trans | apply G].
Qed.
Lemma run_down_sorted l : forall x, StronglySorted le (rev (firstn (run_down lt x l) (x :: l))).
Proof.
  assert (G : forall l x, StronglySorted (fun a b => lt b a = true) (firstn (run_down lt x l) (x :: l))).
  { intros l0 x0. apply Sorted_StronglySorted; [intros a b c H1 H2; exact (le_lt_trans _ _ _ (asym _ _ H2) H1)|].
    revert x0. induction l0 as [|y r IH]; intros x; cbn; [repeat constructor|].
    destruct (lt y x) eqn:E; [|cbn; repeat constructor]. cbn [firstn]. specialize (IH y).
    destruct (run_down lt y r) eqn:En; [destruct r as [|z r']; cbn in En; [|destruct (lt z y)]; discriminate|].
    cbn [firstn] in *. constructor; auto. }
  intros x. specialize (G l x). induction G as [|a r Hr IH Ha]; cbn; [constructor|].
  apply SS_app; [exact IH | repeat constructor|]. intros u v Hu [<-|[]]. apply in_rev in Hu. rewrite Forall_forall in Ha.
  apply asym, Ha, Hu.
Qed.
Lemma pysort_sorted l : StronglySorted le (pysort lt l).
Proof.
  destruct l as [|x [|y r]]; [constructor | repeat constructor|]. unfold pysort. apply fold_insert_sorted.
  destruct (lt y x); [apply run_down_sorted | apply run_up_sorted].
Qed.
End Weak.

(** Two sorted permutations of each other agree up to equivalence. *)
Lemma sorted_unique {A} (le : A -> A -> Prop) (tr : forall a b c, le a b -> le b c -> le a c) (refl : forall a, le a a) :
  forall l m, StronglySorted le l -> StronglySorted le m -> Permutation l m -> Forall2 (fun a b => le a b /\ le b a) l m.
Proof.
  assert (G : forall l m, StronglySorted le l -> StronglySorted le m -> Permutation l m ->
              forall i a b, nth_error l i = Some a -> nth_error m i = Some b -> le a b).
  { (* among the first i+1 elements of m one is at or after place i in l *)
    intros l m Hl Hm Hp i a b Ha Hb.
    apply Permutation_nth_error in Hp as (Hlen & f & Hinj & Hf).
    assert (Hi : i < length m) by (apply nth_error_Some; congruence).
    assert (HSS : forall (l : list A), StronglySorted le l -> forall i j x y, i <= j -> nth_error l i = Some x -> nth_error l j = Some y -> le x y).
    { clear -refl. induction 1 as [|a r Hr IH Ha]; intros i j x y Hij Hx Hy; [destruct i; discriminate|].
      destruct i as [|i], j as [|j]; cbn in *; try lia; [replace y with x by congruence; apply refl | | apply (IH i j); auto; lia].
      injection Hx as <-. rewrite Forall_forall in Ha. apply Ha. eapply nth_error_In; eauto. }
    assert (Hex : exists j, j <= i /\ i <= f j).
    { destruct (existsb (fun j => i <=? f j) (seq 0 (S i))) eqn:E.
      - apply existsb_exists in E as (j & Hj & H). apply in_seq in Hj. apply Nat.leb_le in H. exists j. lia.
      - exfalso. assert (Hall : incl (map f (seq 0 (S i))) (seq 0 i)).
        { intros v Hv. apply in_map_iff in Hv as (j & <- & Hj). apply in_seq.
          destruct (Nat.lt_ge_cases (f j) i); [lia|]. exfalso.
          rewrite <- not_true_iff_false in E. apply E, existsb_exists. exists j. split; auto. apply Nat.leb_le; auto. }
        apply NoDup_incl_length in Hall; [rewrite map_length, !seq_length in Hall; lia|].
        apply FinFun.Injective_map_NoDup; auto. apply seq_NoDup. }
    destruct Hex as (j & Hji & Hfj).
    destruct (nth_error m j) as [c|] eqn:Ec; [|apply nth_error_None in Ec; lia].
    pose proof (Hf j) as Hc. rewrite Ec in Hc.
    apply (tr _ c); [|apply (HSS m Hm j i); auto].
    apply (HSS l Hl i (f j)); auto. }
  intros l m Hl Hm Hp. pose proof (Permutation_length Hp) as Hlen.
  assert (K : forall i a b, nth_error l i = Some a -> nth_error m i = Some b -> le a b /\ le b a).
  { intros i a b Ha Hb. split; [exact (G l m Hl Hm Hp i a b Ha Hb) | exact (G m l Hm Hl (Permutation_sym Hp) i b a Hb Ha)]. }
  clear -K Hlen. revert m Hlen K. induction l as [|a l IH]; intros [|b m] Hlen K; try discriminate; constructor.
  - apply (K 0); reflexivity.
  - apply IH; [cbn in Hlen; lia|]. intros i. exact (K (S i)).
Qed.

(** ** Pairs (fitness, member) in which the unknown fitness values form one block *)
Definition enc (top : bool) (f : fnum) : list Q :=
  match f with Num x => [if top then 0%Q else 1%Q; x] | NaN => [if top then 1%Q else 0%Q; 0%Q] end.
Definition flt (top : bool) (a b : fnum) : bool := list_ltb (enc top a) (enc top b).
Definition plt (top : bool) (a b : fnum * list Q) : bool := list_ltb (enc top (fst a) ++ snd a) (enc top (fst b) ++ snd b).

Lemma Qeq_bool_false a b : Qeq_bool a b = false <-> ~ (a == b)%Q.
Proof. rewrite <- Qeq_bool_iff. destruct (Qeq_bool a b); split; intros H; congruence. Qed.
Lemma Qltb_false a b : Qltb a b = false <-> (b <= a)%Q.
Proof. rewrite <- not_true_iff_false, Qltb_lt. split; [apply Qnot_lt_le | apply Qle_not_lt]. Qed.

Lemma list_ltb_asym a : forall b, list_ltb a b = true -> list_ltb b a = false.
Proof.
  induction a as [|x a IH]; intros [|y b]; cbn; auto.
  destruct (Qeq_bool x y) eqn:E; intros H.
  - apply Qeq_bool_iff in E. replace (Qeq_bool y x) with true by (symmetry; apply Qeq_bool_iff; symmetry; exact E). auto.
  - apply Qeq_bool_false in E. replace (Qeq_bool y x) with false by (symmetry; apply Qeq_bool_false; intros X; apply E; symmetry; exact X).
    apply Qltb_lt in H. apply Qltb_false, Qlt_le_weak, H.
Qed.
Lemma list_le_cons x a y b : list_ltb (x :: a) (y :: b) = false <-> (y < x)%Q \/ ((x == y)%Q /\ list_ltb a b = false).
Proof.
  cbn. destruct (Qeq_bool x y) eqn:E; [apply Qeq_bool_iff in E | apply Qeq_bool_false in E].
  - split; [auto|]. intros [H|[_ H]]; auto. rewrite E in H. exfalso. exact (Qlt_irrefl _ H).
  - rewrite Qltb_false. split; [|intros [H|[H _]]; [apply Qlt_le_weak, H | contradiction]].
    intros H. apply Qle_lteq in H as [H|H]; [auto | exfalso; apply E; symmetry; exact H].
Qed.
Lemma list_ltb_trans a : forall b c, list_ltb b a = false -> list_ltb c b = false -> list_ltb c a = false.
Proof.
  induction a as [|x a IH]; intros [|y b] [|z c] H1 H2; auto; try (cbn in H1, H2; discriminate); try reflexivity.
  apply list_le_cons in H1. apply list_le_cons in H2. apply list_le_cons.
  destruct H1 as [H1|[H1 H1']], H2 as [H2|[H2 H2']].
  - left. eapply Qlt_trans; eauto.
  - left. rewrite H2. exact H1.
  - left. rewrite <- H1. exact H2.
  - right. split; [rewrite H2; exact H1 | eapply IH; eauto].
Qed.
Lemma list_ltb_irrefl a : list_ltb a a = false.
Proof. destruct (list_ltb a a) eqn:E; auto. rewrite (list_ltb_asym _ _ E) in E. discriminate. Qed.

Lemma flt_le top a b : plt top a b = false -> flt top (fst a) (fst b) = false.
Proof.
  destruct a as [f m], b as [g n]. unfold plt, flt. cbn [fst snd].
  destruct f, g, top; cbn [enc app]; rewrite !list_le_cons; intros [H|[H [H'|[H' H'']]]]; auto;
    right; split; auto; right; split; auto.
Qed.
Lemma fsame_flt top a b : flt top a b = false -> flt top b a = false -> fsame a b.
Proof.
  unfold flt. destruct a, b, top; cbn [enc]; rewrite !list_le_cons; intros [H|[H [H'|[H' H'']]]] [G|[G [G'|[G' G'']]]]; cbn; auto;
    try (exfalso; revert H G; unfold Qlt, Qeq; cbn; lia);
    try (exfalso; revert H; unfold Qlt, Qeq; cbn; lia); try (exfalso; revert G; unfold Qlt, Qeq; cbn; lia);
    try (exfalso; exact (Qlt_irrefl _ (Qlt_trans _ _ _ H' G'))); try (symmetry; exact G'); try exact H'.
Qed.

(** [x] before [y]: the orders agree when [top] puts the block of [x] first. *)
Definition blocks (top : bool) (x y : fnum) : Prop :=
  match x, y with NaN, Num _ => top = false | Num _, NaN => top = true | _, _ => True end.
Lemma flt_agree top x y : blocks top x y -> fit_ltb y x = flt top y x.
Proof.
  destruct x as [x|], y as [y|], top; cbn; intros H; try discriminate; unfold flt; cbn -[Qeq_bool Qltb]; auto.
  all: destruct (Qeq_bool y x) eqn:E; auto; apply Qeq_bool_iff in E; apply Qltb_false; rewrite E; apply Qle_refl.
Qed.
Lemma plt_agree top x y : blocks top (fst x) (fst y) -> pair_ltb y x = plt top y x.
Proof.
  destruct x as [[x|] m], y as [[y|] n], top; cbn; intros H; try discriminate; reflexivity.
Qed.
Lemma FOP_map {A B} (f : A -> B) (R : B -> B -> Prop) l : ForallOrdPairs R (map f l) -> ForallOrdPairs (fun x y => R (f x) (f y)) l.
Proof.
  induction l as [|x l IH]; cbn; intros H; constructor; inversion H as [|? ? Hx Hl]; subst; auto.
  rewrite Forall_map in Hx. exact Hx.
Qed.
Lemma FOP_impl {A} (R S : A -> A -> Prop) l : (forall x y, R x y -> S x y) -> ForallOrdPairs R l -> ForallOrdPairs S l.
Proof. intros H. induction 1 as [|x l Hx Hl IH]; constructor; auto. eapply Forall_impl; [|exact Hx]. auto. Qed.

(** Sorting pairs and sorting the values alone give the same values. *)
Lemma sorts_alike top ps : ForallOrdPairs (blocks top) (map fst ps) ->
  Forall2 fsame (map fst (pysort pair_ltb ps)) (pysort fit_ltb (map fst ps)).
Proof.
  intros H.
  rewrite (pysort_ext pair_ltb (plt top)) by (refine (FOP_impl _ _ _ _ (FOP_map fst _ _ H)); cbn; intros x y; apply plt_agree).
  rewrite (pysort_ext fit_ltb (flt top)) by (eapply FOP_impl; [|exact H]; cbn; intros x y; apply flt_agree).
  assert (K : Forall2 (fun a b => le (flt top) a b /\ le (flt top) b a) (map fst (pysort (plt top) ps)) (pysort (flt top) (map fst ps))).
  { apply sorted_unique.
    - intros a b c. unfold le, flt. intros H1 H2. eapply list_ltb_trans; eauto.
    - intros a. apply list_ltb_irrefl.
    - assert (G : StronglySorted (le (plt top)) (pysort (plt top) ps)).
      { apply pysort_sorted; unfold le, plt; [intros a b; apply list_ltb_asym | intros a b c; apply list_ltb_trans]. }
      induction G as [|x r Hr IH Hx]; cbn; constructor; auto. apply Forall_map. eapply Forall_impl; [|exact Hx].
      intros y. apply flt_le.
    - apply pysort_sorted; unfold le, flt; [intros a b; apply list_ltb_asym | intros a b c; apply list_ltb_trans].
    - rewrite (Permutation_map fst (pysort_perm (plt top) ps)), pysort_perm. reflexivity. }
  clear -K. induction K as [|a b l m [H1 H2] K IH]; constructor; auto. exact (fsame_flt top a b H2 H1).
Qed.
