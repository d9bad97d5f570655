From Coq Require Import Ascii String List Arith ZArith QArith Bool Permutation Sorted Lia Lqa.
From Verif Require Import IP_Model TU_Model TU_Spec TU_Proofs.
Import ListNotations.
Open Scope list_scope.
Open Scope nat_scope.

(** ** Draws *)
Lemma sample_total : forall V (d : dist V) x, inhabited d -> exists g, sample d x = Some g.
Proof.
  intros V [lo hi|mu s|lo hi|vals] x H; cbn [sample inhabited] in *; eauto.
  - destruct (lo <=? hi)%Z eqn:E; [eauto|]. apply Z.leb_gt in E. lia.
  - destruct (nth_error vals (dn x mod List.length vals)) eqn:E; cbn [option_map]; [eauto|]. apply nth_error_None in E.
    assert (List.length vals <> 0) by (destruct vals; cbn; congruence). pose proof (Nat.mod_upper_bound (dn x) (List.length vals) H0). lia.
Qed.
Lemma sample_within : forall V (d : dist V) x g, unit x -> sample d x = Some g -> within d g.
Proof.
  intros V [lo hi|mu s|lo hi|vals] x g U H; cbn [sample] in H.
  - injection H as <-. cbn [within]. intros L. destruct U as [U1 U2]. split; nra.
  - injection H as <-. exact I.
  - destruct (lo <=? hi)%Z eqn:E; [|discriminate]. injection H as <-. cbn [within]. apply Z.leb_le in E.
    pose proof (Z.mod_pos_bound (Z.of_nat (dn x)) (hi - lo + 1)). lia.
  - destruct (nth_error vals (dn x mod List.length vals)) eqn:E; [|discriminate]. injection H as <-. cbn [within]. apply (nth_error_In _ _ E).
Qed.
Lemma all_some_length : forall A (l : list (option A)) r, all_some l = Some r -> List.length r = List.length l.
Proof. intros A l r H. apply all_some_spec in H. subst. rewrite map_length. reflexivity. Qed.
Lemma all_some_nth : forall A (l : list (option A)) r, all_some l = Some r -> forall i, nth_error l i = option_map Some (nth_error r i).
Proof. intros A l r H i. apply all_some_spec in H. subst. apply nth_error_map. Qed.
Lemma all_some_total : forall A (l : list (option A)), (forall x, In x l -> x <> None) -> exists r, all_some l = Some r.
Proof.
  intros A; induction l as [|[x|] l IH]; intros H; [exists []; reflexivity| |exfalso; apply (H None); [left|]; reflexivity].
  destruct IH as [r E]; [intros y Hy; apply H; right; exact Hy|]. exists (x :: r). cbn [all_some]. rewrite E. reflexivity.
Qed.
Lemma all_some_forall2 : forall A B (f : A -> option B) (P : A -> B -> Prop) l r, all_some (map f l) = Some r -> (forall a b, In a l -> f a = Some b -> P a b) -> Forall2 P l r.
Proof.
  intros A B f P; induction l as [|a l IH]; intros r H K; cbn [map all_some] in H.
  - injection H as <-. constructor.
  - destruct (f a) as [b|] eqn:E; [|discriminate]. destruct (all_some (map f l)) eqn:E'; [|discriminate]. injection H as <-. constructor.
    + apply K; [left; reflexivity|exact E].
    + apply IH; [reflexivity|]. intros; apply K; [right|]; assumption.
Qed.
Lemma forall2_fst : forall A B C (P : A -> C -> Prop) (l : list A) (m : list B) r, List.length l = List.length m -> Forall2 (fun x => P (fst x)) (combine l m) r -> Forall2 P l r.
Proof.
  intros A B C P; induction l as [|a l IH]; intros [|b m] r L H; cbn [List.length combine] in *; try discriminate; inversion H; subst; constructor; [assumption|].
  apply (IH m); [lia|assumption].
Qed.
Lemma sample_all_within : forall V (ds : list (dist V)) x c, (forall j, unit (x j)) -> sample_all ds x = Some c -> Forall2 within ds c.
Proof.
  intros V ds x c U H. unfold sample_all in H.
  apply (forall2_fst _ _ _ _ ds (seq 0 (List.length ds))); [rewrite seq_length; reflexivity|].
  apply (all_some_forall2 _ _ _ _ _ _ H). intros p b _ E. apply (sample_within _ _ _ _ (U (snd p)) E).
Qed.
Lemma sample_all_total : forall V (ds : list (dist V)) x, Forall inhabited ds -> exists c, sample_all ds x = Some c.
Proof.
  intros V ds x H. unfold sample_all. apply all_some_total. intros o Ho. apply in_map_iff in Ho as (p & <- & Hp).
  assert (D : In (fst p) ds) by (destruct p; apply in_combine_l in Hp; exact Hp).
  destruct (sample_total V (fst p) (x (snd p)) (proj1 (Forall_forall _ _) H _ D)) as [g E]. rewrite E. discriminate.
Qed.
Lemma forall2_len : forall A B (P : A -> B -> Prop) l r, Forall2 P l r -> List.length l = List.length r.
Proof. intros A B P l r H; induction H; [reflexivity|]. cbn [List.length]. rewrite IHForall2. reflexivity. Qed.

Theorem rand_all : forall V isspace int_of float_of (elem : text -> V) show lines card ncases x ps ws ds,
  template lines = Some (source ps) -> flat ps -> map fst (tuned_items card) = map name ws -> Forall plain ws -> (forall w, In w ws -> In (Hole w) ps) ->
  Forall2 (fun kv d => parse_dist isspace int_of float_of elem true (snd kv) = Some d) (tuned_items card) ds -> Forall inhabited ds ->
  (forall i j, unit (x i j)) -> (forall g, plain (show g)) ->
  exists cs, rand_cases isspace int_of float_of elem show lines card ncases x = Some cs
    /\ map fst cs = seq 1 ncases
    /\ forall k c file, In (k, (c, file)) cs -> Forall2 within ds c /\ file = filled (combine ws (map show c)) ps.
Proof.
  intros V isspace int_of float_of elem show lines card ncases x ps ws ds Ht Hf Hk Hw Hu Hd Hi U Hp.
  unfold rand_cases. rewrite Ht. fold (tuned_items card).
  replace (all_used (source ps) (map fst (tuned_items card))) with true.
  2: { symmetry. unfold all_used. rewrite forallb_forall. rewrite Hk. intros n Hn. apply in_map_iff in Hn as (w & <- & Hn).
       apply contains_hole; [exact (proj1 (Forall_forall _ _) Hw w Hn)|exact Hf|apply Hu, Hn]. }
  assert (E : all_some (map (fun kv => parse_dist isspace int_of float_of elem true (snd kv)) (tuned_items card)) = Some ds).
  { clear -Hd. induction Hd; [reflexivity|]. cbn [map all_some]. rewrite H, IHHd. reflexivity. }
  rewrite E. clear E.
  assert (T : exists combos, rand_count ncases ds x = Some combos).
  { unfold rand_count. apply all_some_total. intros o Ho. apply in_map_iff in Ho as (i & <- & _). destruct (sample_all_total V ds (x i) Hi) as [c E]. rewrite E. discriminate. }
  destruct T as [combos T]. rewrite T.
  assert (L : List.length combos = ncases) by (unfold rand_count in T; apply all_some_length in T; rewrite map_length, seq_length in T; exact T).
  assert (W : forall c, In c combos -> Forall2 within ds c).
  { intros c Hc. unfold rand_count in T. apply all_some_spec in T. assert (Hc' : In (Some c) (map Some combos)) by (apply in_map, Hc). rewrite <- T in Hc'.
    apply in_map_iff in Hc' as (i & E & _). apply (sample_all_within _ _ _ _ (U i) E). }
  rewrite Hk.
  rewrite (all_some_map _ _ _ (fun c => filled (combine ws (map show c)) ps)).
  - cbn [option_map]. rewrite combine_map_self. eexists. split; [reflexivity|]. split.
    + rewrite combine_fst by (rewrite seq_length, map_length; reflexivity). rewrite L. reflexivity.
    + intros k c file H. apply in_combine_r in H. apply in_map_iff in H as (c' & E & Hc). injection E; intros; subst. split; [apply W, Hc|reflexivity].
  - intros c Hc. apply fill_filled; [exact Hw| | |exact Hf].
    + apply Forall_forall. intros s Hs. apply in_map_iff in Hs as (g & <- & _). apply Hp.
    + rewrite map_length. rewrite <- (forall2_len _ _ _ _ _ (W c Hc)). rewrite <- (forall2_len _ _ _ _ _ Hd).
      rewrite <- (map_length name ws), <- Hk, map_length. reflexivity.
Qed.

Lemma no_word_none : forall V isspace int_of float_of (elem : text -> V) nb s, (forall w, In w words -> ~ In w (map (strip isspace) (split "," s))) ->
  parse_dist isspace int_of float_of elem nb s = None.
Proof.
  intros V isspace int_of float_of elem nb s H. unfold parse_dist.
  assert (M : forall w, In (t w) words -> has_word w (map (strip isspace) (split "," s)) = false).
  { intros w Hw. unfold has_word, mem. apply not_true_is_false. intros E. apply existsb_exists in E as (y & Hy & E). apply teqb_eq in E. subst y. apply (H _ Hw Hy). }
  unfold float_word, normal_word, int_word, grid_word.
  rewrite !M by (unfold words; cbn [map In]; tauto). rewrite andb_false_r. reflexivity.
Qed.
Theorem rand_no_word : forall V isspace int_of float_of (elem : text -> V) show lines card ncases x kv, In kv (tuned_items card) ->
  (forall w, In w words -> ~ In w (map (strip isspace) (split "," (snd kv)))) -> rand_cases isspace int_of float_of elem show lines card ncases x = None.
Proof.
  intros V isspace int_of float_of elem show lines card ncases x kv Hk H. unfold rand_cases. destruct (template lines) as [tpl|]; [|reflexivity].
  fold (tuned_items card). destruct (all_used tpl _); [|reflexivity].
  rewrite all_some_none; [reflexivity|]. rewrite <- (no_word_none V isspace int_of float_of elem true (snd kv) H).
  apply (in_map (fun kv => parse_dist isspace int_of float_of elem true (snd kv))), Hk.
Qed.

(** ** Evolution *)
Section Evo.
  Context {V : Type}.
  Variable fit : nat -> list (gene V) -> option Q.
  Variable by_name : list (list (gene V) * option Q) -> list (list (gene V) * option Q).
  Notation ind := (list (gene V)).

  Lemma remove_first_incl : forall z l x, In x (remove_first z l) -> In x l.
  Proof.
    intros z; induction l as [|y l IH]; intros x H; [exact H|]. unfold remove_first in H. destruct (y =? z)%Z; [right; exact H|].
    destruct H as [<-|H]; [left; reflexivity|right; apply IH, H].
  Qed.
  Lemma zrange_in : forall lo hi z, In z (zrange lo hi) <-> (lo <= z <= hi)%Z.
  Proof.
    intros lo hi z. unfold zrange. rewrite in_map_iff. split.
    - intros (i & <- & H). apply in_seq in H. lia.
    - intros H. exists (Z.to_nat (z - lo)). split; [lia|]. apply in_seq. lia.
  Qed.
  Lemma mutate_within : forall (d : dist V) x g g', within d g -> mutate_gene d x g = Some g' -> within d g'.
  Proof.
    intros [lo hi|mu s|lo hi|vals] x [q|z|v] g' W H; cbn [mutate_gene within] in *; try discriminate; try contradiction.
    - injection H as <-. cbn [within]. intros L. set (q1 := if ghit x then (q + gstep x)%Q else q).
      destruct (Qle_bool lo q1) eqn:E1.
      + apply Qle_bool_iff in E1. destruct (Qle_bool q1 hi) eqn:E2; [apply Qle_bool_iff in E2; split; assumption|].
        split; [exact L|apply Qle_refl].
      + destruct (Qle_bool lo hi) eqn:E2; [split; [apply Qle_refl|exact L]|split; [exact L|apply Qle_refl]].
    - destruct (nth_error _ _) as [z'|] eqn:E; [|discriminate]. injection H as <-. cbn [within].
      apply nth_error_In, remove_first_incl, zrange_in in E. exact E.
    - destruct (ghit x); [|injection H as <-; exact W]. destruct (nth_error vals _) eqn:E; [|discriminate]. injection H as <-. apply (nth_error_In _ _ E).
  Qed.
  Lemma mutES_within : forall (ds : list (dist V)) x p p', Forall2 within ds p -> mutES ds x p = Some p' -> Forall2 within ds p'.
  Proof.
    intros ds x p p' W H. unfold mutES in H. pose proof (forall2_len _ _ _ _ _ W) as L.
    assert (L2 : List.length (combine ds p) = List.length p) by (rewrite combine_length; lia).
    assert (F : Forall2 (fun k => within (fst (fst k))) (combine (combine ds p) (seq 0 (List.length p))) p').
    { apply (all_some_forall2 _ _ _ _ _ _ H). intros [[d g] i] b Hi E. cbn [fst snd] in *. apply (mutate_within d (x i) g b); [|exact E].
      apply in_combine_l in Hi. clear -W Hi. induction W; [destruct Hi|]. cbn [combine In] in Hi. destruct Hi as [E|Hi]; [injection E; intros; subst; assumption|apply IHW, Hi]. }
    apply (forall2_fst _ _ _ _ ds p p' L). apply (forall2_fst _ _ _ (fun k => within (fst k)) (combine ds p) (seq 0 (List.length p))); [rewrite seq_length; exact L2|exact F].
  Qed.
  Lemma forall2_nth : forall A B (P : A -> B -> Prop) l r, Forall2 P l r <-> List.length l = List.length r /\ forall i a b, nth_error l i = Some a -> nth_error r i = Some b -> P a b.
  Proof.
    intros A B P; induction l as [|x l IH]; intros [|y r]; split.
    - intros _. split; [reflexivity|]. intros [|i]; discriminate.
    - intros _. constructor.
    - intros H; inversion H.
    - intros [H _]; discriminate.
    - intros H; inversion H.
    - intros [H _]; discriminate.
    - intros H. inversion H; subst. apply IH in H5 as [L K]. split; [cbn [List.length]; lia|]. intros [|i] a b Ha Hb; cbn [nth_error] in *; [congruence|apply (K i); assumption].
    - intros [L K]. constructor; [apply (K 0); reflexivity|]. apply IH. split; [cbn [List.length] in L; lia|]. intros i a b Ha Hb. apply (K (S i)); assumption.
  Qed.
  Lemma nth_error_firstn' : forall A (l : list A) n i, nth_error (firstn n l) i = if i <? n then nth_error l i else None.
  Proof.
    intros A; induction l as [|x l IH]; intros [|n] [|i]; try reflexivity.
    - cbn [firstn nth_error]. destruct (S i <? S n); reflexivity.
    - cbn [firstn nth_error]. rewrite IH. reflexivity.
  Qed.
  Lemma nth_error_skipn' : forall A (l : list A) n i, nth_error (skipn n l) i = nth_error l (n + i).
  Proof. intros A; induction l as [|x l IH]; intros [|n] i; cbn [skipn nth_error Nat.add]; try reflexivity; [destruct i; reflexivity|apply IH]. Qed.
  (** A value of the child is the value of one of the parents at the same place. *)
  Lemma cx_nth : forall a b (p q c : ind), List.length p = List.length q -> cx a b p q = Some c ->
    List.length c = List.length p /\ nth_error c 0 = nth_error p 0 /\ forall i, nth_error c i = nth_error p i \/ nth_error c i = nth_error q i.
  Proof.
    intros a b p q c L H. unfold cx in H. rewrite <- L, Nat.min_id in H. set (n := List.length p) in *.
    destruct (n <=? 1) eqn:E; [discriminate|]. apply Nat.leb_gt in E.
    pose proof (Nat.mod_upper_bound a n ltac:(lia)) as B1. pose proof (Nat.mod_upper_bound b (n - 1) ltac:(lia)) as B2.
    remember (if 1 + a mod n <=? 1 + b mod (n - 1) then 1 + a mod n else 1 + b mod (n - 1)) as lo.
    remember (if 1 + a mod n <=? 1 + b mod (n - 1) then S (1 + b mod (n - 1)) else 1 + a mod n) as hi.
    assert (R : 1 <= lo /\ lo <= hi /\ hi <= n).
    { destruct (1 + a mod n <=? 1 + b mod (n - 1)) eqn:E1; [apply Nat.leb_le in E1|apply Nat.leb_gt in E1]; lia. }
    clear Heqlo Heqhi B1 B2. injection H as <-.
    assert (L1 : List.length (firstn lo p) = lo) by (rewrite firstn_length; fold n; lia).
    assert (L2 : List.length (firstn (hi - lo) (skipn lo q)) = hi - lo) by (rewrite firstn_length, skipn_length; rewrite <- L; fold n; lia).
    assert (X : forall i, nth_error (firstn lo p ++ firstn (hi - lo) (skipn lo q) ++ skipn hi p) i = if (lo <=? i) && (i <? hi) then nth_error q i else nth_error p i).
    { intros i. destruct (Nat.lt_ge_cases i lo) as [H1|H1].
      - rewrite nth_error_app1 by lia. rewrite nth_error_firstn'. replace (i <? lo) with true by (symmetry; apply Nat.ltb_lt; lia).
        replace (lo <=? i) with false by (symmetry; apply Nat.leb_gt; lia). reflexivity.
      - rewrite nth_error_app2 by lia. rewrite L1. replace (lo <=? i) with true by (symmetry; apply Nat.leb_le; lia). destruct (Nat.lt_ge_cases i hi) as [H2|H2].
        + rewrite nth_error_app1 by lia. rewrite nth_error_firstn', nth_error_skipn'. replace (i - lo <? hi - lo) with true by (symmetry; apply Nat.ltb_lt; lia).
          replace (i <? hi) with true by (symmetry; apply Nat.ltb_lt; lia). cbn [andb]. f_equal. lia.
        + rewrite nth_error_app2 by lia. rewrite L2, nth_error_skipn'. replace (i <? hi) with false by (symmetry; apply Nat.ltb_ge; lia). cbn [andb]. f_equal. lia. }
    split; [rewrite !app_length, L1, L2, skipn_length; fold n; lia|]. split.
    - rewrite X. replace (lo <=? 0) with false by (symmetry; apply Nat.leb_gt; lia). reflexivity.
    - intros i. rewrite X. destruct ((lo <=? i) && (i <? hi)); [right|left]; reflexivity.
  Qed.
  Lemma cx_within : forall a b (ds : list (dist V)) p q c, Forall2 within ds p -> Forall2 within ds q -> cx a b p q = Some c -> Forall2 within ds c.
  Proof.
    intros a b ds p q c Hp Hq H. pose proof (forall2_len _ _ _ _ _ Hp) as Lp. pose proof (forall2_len _ _ _ _ _ Hq) as Lq.
    destruct (cx_nth a b p q c ltac:(congruence) H) as (L & _ & K). apply forall2_nth in Hp as [_ Hp]. apply forall2_nth in Hq as [_ Hq].
    apply forall2_nth. split; [congruence|]. intros i d g Hd Hg. destruct (K i) as [E|E]; rewrite E in Hg; [apply (Hp i)|apply (Hq i)]; assumption.
  Qed.
  Lemma child_within : forall (ds : list (dist V)) pop x c, Forall (Forall2 within ds) pop -> child ds pop x = Some c -> Forall2 within ds c.
  Proof.
    intros ds pop x c W H. unfold child in H. rewrite Forall_forall in W.
    destruct (negb (Qle_bool (1 # 2) (calpha x))).
    - destruct (nth_error pop _) as [p|] eqn:E1 in H; [|discriminate]. destruct (nth_error pop _) as [q|] eqn:E2 in H; [|discriminate].
      apply (cx_within _ _ _ _ _ _ (W _ (nth_error_In _ _ E1)) (W _ (nth_error_In _ _ E2)) H).
    - destruct (negb _) in H.
      + destruct (nth_error pop _) as [p|] eqn:E1 in H; [|discriminate]. apply (mutES_within _ _ _ _ (W _ (nth_error_In _ _ E1)) H).
      + apply W, (nth_error_In _ _ H).
  Qed.
  Lemma offspring_within : forall (ds : list (dist V)) pop x l, Forall (Forall2 within ds) pop -> offspring ds pop x = Some l -> Forall (Forall2 within ds) l /\ List.length l = popsize.
  Proof.
    intros ds pop x l W H. unfold offspring in H. split.
    - apply all_some_spec in H. apply Forall_forall. intros c Hc. assert (H' : In (Some c) (map Some l)) by (apply in_map, Hc). rewrite <- H in H'.
      apply in_map_iff in H' as (i & E & _). apply (child_within _ _ _ _ W E).
    - apply all_some_length in H. rewrite H, map_length, seq_length. reflexivity.
  Qed.

  Lemma insert_desc_perm : forall (x : ind * Q) l, Permutation (x :: l) (insert_desc x l).
  Proof. intros x; induction l as [|y l IH]; cbn [insert_desc]; [reflexivity|]. destruct (Qle_bool (snd y) (snd x)); [reflexivity|]. rewrite perm_swap. apply perm_skip, IH. Qed.
  Lemma desc_perm : forall l : list (ind * Q), Permutation l (desc l).
  Proof. induction l as [|x l IH]; cbn [desc fold_right]; [reflexivity|]. rewrite <- insert_desc_perm. apply perm_skip, IH. Qed.
  Definition ge_fit (a b : ind * Q) : Prop := (snd b <= snd a)%Q.
  Lemma insert_desc_sorted : forall x l, StronglySorted ge_fit l -> StronglySorted ge_fit (insert_desc x l).
  Proof.
    intros x; induction l as [|y l IH]; intros H; cbn [insert_desc]; [repeat constructor|]. inversion H; subst. destruct (Qle_bool (snd y) (snd x)) eqn:E.
    - apply Qle_bool_iff in E. constructor; [exact H|]. constructor; [exact E|]. revert H3. apply Forall_impl. intros a Ha. unfold ge_fit in *. eapply Qle_trans; [exact Ha|exact E].
    - constructor; [apply IH; assumption|]. apply Forall_forall. intros a Ha. apply (Permutation_in _ (Permutation_sym (insert_desc_perm x l))) in Ha. destruct Ha as [<-|Ha].
      + unfold ge_fit. apply Qlt_le_weak, Qnot_le_lt. intros C. apply Qle_bool_iff in C. congruence.
      + exact (proj1 (Forall_forall _ _) H3 a Ha).
  Qed.
  Lemma desc_sorted : forall l, StronglySorted ge_fit (desc l).
  Proof. induction l as [|x l IH]; cbn [desc fold_right]; [constructor|apply insert_desc_sorted, IH]. Qed.

  Lemma select_incl : (forall l, incl (by_name l) l) -> forall l pop, select by_name l = Some pop -> incl pop (map eind l).
  Proof.
    intros N l pop H. unfold select in H. destruct (all_some (map efit l)) as [fs|] eqn:E.
    - injection H as <-. intros p Hp. apply in_map_iff in Hp as ([i f] & <- & Hp). cbn [fst].
      assert (D : In (i, f) (desc (combine (map eind l) fs))) by (rewrite <- (firstn_skipn MU); apply in_or_app; left; exact Hp).
      apply (Permutation_in _ (Permutation_sym (desc_perm _))) in D. apply (in_combine_l _ _ _ _ D).
    - destruct (forallb _ l); [|discriminate]. injection H as <-. intros p Hp. apply in_map_iff in Hp as ([i f] & <- & Hp). cbn [fst].
      assert (D : In (i, f) (by_name (map (fun e => (eind e, efit e)) l))) by (rewrite <- (firstn_skipn MU); apply in_or_app; left; exact Hp).
      apply N in D. apply in_map_iff in D as (e & E' & He). injection E'; intros; subst. apply in_map, He.
  Qed.
  Theorem select_best : forall l pop, select by_name l = Some pop -> (forall e, In e l -> efit e <> None) ->
    exists chosen rest, Permutation l (chosen ++ rest) /\ pop = map eind chosen /\ List.length chosen = Nat.min 5 (List.length l)
      /\ forall c r, In c chosen -> In r rest -> match efit c, efit r with Some fc, Some fr => (fr <= fc)%Q | _, _ => False end.
  Proof.
    intros l pop H N. unfold select in H.
    destruct (all_some_total _ (map efit l)) as [fs E]; [intros o Ho; apply in_map_iff in Ho as (e & <- & He); apply N, He|].
    rewrite E in H. assert (Hp : pop = map fst (firstn MU (desc (combine (map eind l) fs)))) by congruence. clear H. subst pop.
    pose proof (all_some_spec _ _ _ E) as S.
    assert (P : exists l', Permutation l l' /\ desc (combine (map eind l) fs) = map (fun e => (eind e, match efit e with Some f => f | None => 0%Q end)) l').
    { assert (C : combine (map eind l) fs = map (fun e => (eind e, match efit e with Some f => f | None => 0%Q end)) l).
      { clear -S. revert fs S. induction l as [|e l IH]; intros [|f fs] S; cbn [map] in S; try discriminate; [reflexivity|]. injection S as S1 S2. cbn [map combine]. rewrite S1, (IH fs S2). reflexivity. }
      rewrite C. pose proof (desc_perm (map (fun e => (eind e, match efit e with Some f => f | None => 0%Q end)) l)) as D.
      apply Permutation_sym, Permutation_map_inv in D as (l' & E1 & E2). exists l'. split; [exact E2|exact E1]. }
    destruct P as (l' & P & D). exists (firstn MU l'), (skipn MU l'). rewrite firstn_skipn. split; [exact P|]. split; [|split].
    - rewrite D, firstn_map, map_map. reflexivity.
    - rewrite firstn_length, (Permutation_length P). reflexivity.
    - pose proof (desc_sorted (combine (map eind l) fs)) as G. rewrite D in G.
      assert (N' : forall e, In e l' -> efit e <> None) by (intros e He; apply N, (Permutation_in _ (Permutation_sym P) He)).
      rewrite <- (firstn_skipn MU l') in G, N'. revert G N'. generalize (firstn MU l') as a, (skipn MU l') as b. clear.
      induction a as [|x a IH]; intros b G N' c r Hc Hr; [destruct Hc|]. cbn [map app] in G. inversion G; subst. destruct Hc as [<-|Hc].
      + pose proof (N' x (or_introl eq_refl)) as N1. pose proof (N' r (in_or_app (x :: a) b r (or_intror Hr))) as N2.
        rewrite Forall_forall in H2. specialize (H2 _ (in_map (fun e => (eind e, match efit e with Some f => f | None => 0%Q end)) _ r (in_or_app a b r (or_intror Hr)))).
        unfold ge_fit in H2. cbn [snd] in H2. destruct (efit x), (efit r); try congruence.
      + apply (IH b); [assumption| |assumption..]. intros e He. apply N'. right; exact He.
  Qed.
  Lemma select_mixed : forall l e1 e2, In e1 l -> In e2 l -> efit e1 = None -> efit e2 <> None -> select by_name l = None.
  Proof.
    intros l e1 e2 H1 H2 E1 E2. unfold select. rewrite all_some_none by (rewrite <- E1; apply in_map, H1).
    replace (forallb _ l) with false; [reflexivity|]. symmetry. apply not_true_is_false. intros E. rewrite forallb_forall in E. specialize (E e2 H2). destruct (efit e2); [discriminate|congruence].
  Qed.

  (** *** The log *)
  Lemma evaluate_spec : forall l first, map ecase (evaluate fit first l) = seq first (List.length l) /\ map eind (evaluate fit first l) = l
    /\ forall e, In e (evaluate fit first l) -> efit e = fit (ecase e) (eind e).
  Proof.
    intros l first. unfold evaluate. assert (L : List.length (seq first (List.length l)) = List.length l) by apply seq_length.
    split; [|split].
    - rewrite map_map. cbn [ecase]. change (map (fun x => fst x) (combine (seq first (List.length l)) l)) with (map fst (combine (seq first (List.length l)) l)). apply combine_fst, L.
    - rewrite map_map. cbn [eind]. change (map (fun x => snd x) (combine (seq first (List.length l)) l)) with (map snd (combine (seq first (List.length l)) l)). apply combine_snd, L.
    - intros e He. apply in_map_iff in He as (p & <- & _). reflexivity.
  Qed.
  Lemma generations_log : (forall l, incl (by_name l) l) -> forall (ds : list (dist V)) x k first pop, Forall (Forall2 within ds) pop ->
    let r := generations fit by_name ds x k first pop in
    (exists g, map ecase (fst r) = seq first (popsize * g) /\ (if snd r then g = k else g <= k))
    /\ (forall e, In e (fst r) -> Forall2 within ds (eind e) /\ efit e = fit (ecase e) (eind e)).
  Proof.
    intros N ds x; induction k as [|k IH]; intros first pop W r.
    - split; [exists 0; split; reflexivity|intros e []].
    - unfold r. cbn [generations]. destruct (offspring ds pop (x (S k))) as [l|] eqn:E.
      2: { split; [exists 0; split; [reflexivity|cbn [snd]; lia]|intros e []]. }
      destruct (offspring_within _ _ _ _ W E) as [Wl Ll]. destruct (evaluate_spec l first) as (S1 & S2 & S3).
      assert (Q : forall e, In e (evaluate fit first l) -> Forall2 within ds (eind e) /\ efit e = fit (ecase e) (eind e)).
      { intros e He. split; [|apply S3, He]. rewrite Forall_forall in Wl. apply Wl. rewrite <- S2. apply in_map, He. }
      destruct (select by_name (evaluate fit first l)) as [pop'|] eqn:E'.
      2: { split; [exists 1; split; [cbn [fst]; rewrite S1, Ll, Nat.mul_1_r; reflexivity|cbn [snd]; lia]|exact Q]. }
      assert (W' : Forall (Forall2 within ds) pop').
      { apply Forall_forall. intros p Hp. apply (select_incl N _ _ E') in Hp. rewrite S2 in Hp. rewrite Forall_forall in Wl. apply Wl, Hp. }
      destruct (IH (first + popsize) pop' W') as [(g & G1 & G2) G3]. cbn [fst snd]. split.
      + exists (S g). split.
        * rewrite map_app, S1, Ll, G1. replace (popsize * S g) with (popsize + popsize * g) by lia. rewrite seq_app. reflexivity.
        * destruct (snd _); lia.
      + intros e He. apply in_app_or in He as [He|He]; [apply Q, He|apply G3, He].
  Qed.

  Theorem es_log : (forall l, incl (by_name l) l) -> forall (ds : list (dist V)) ncases init x, (forall i j, unit (init i j)) ->
    let r := es_run fit by_name ds ncases init x in
    (exists g, map ecase (fst r) = seq 1 (10 * g) /\ (snd r <> None -> g = Nat.max 1 (ncases / 10)))
    /\ forall e, In e (fst r) -> Forall2 within ds (eind e) /\ efit e = fit (ecase e) (eind e).
  Proof.
    intros N ds ncases init x U r. unfold r, es_run. destruct (all_some _) as [pop|] eqn:E.
    2: { split; [exists 0; split; [reflexivity|cbn [snd]; congruence]|intros e []]. }
    assert (W : Forall (Forall2 within ds) pop).
    { apply all_some_spec in E. apply Forall_forall. intros c Hc. assert (H : In (Some c) (map Some pop)) by (apply in_map, Hc). rewrite <- E in H.
      apply in_map_iff in H as (i & H & _). apply (sample_all_within _ _ _ _ (U i) H). }
    assert (L : List.length pop = popsize) by (apply all_some_length in E; rewrite map_length, seq_length in E; exact E).
    destruct (evaluate_spec pop 1) as (S1 & S2 & S3).
    destruct (generations_log N ds x (ngens ncases - 1) (S popsize) pop W) as [(g & G1 & G2) G3]. cbn [fst snd]. split.
    - exists (S g). split.
      + rewrite map_app, S1, L, G1. replace (10 * S g) with (popsize + popsize * g) by (unfold popsize; lia). rewrite seq_app. reflexivity.
      + intros H. destruct (snd (generations fit by_name ds x (ngens ncases - 1) (S popsize) pop)); [|congruence]. subst g.
        unfold ngens, popsize. destruct (ncases <? 10) eqn:E2.
        * apply Nat.ltb_lt in E2. rewrite Nat.div_small by exact E2. reflexivity.
        * apply Nat.ltb_ge in E2. pose proof (Nat.div_le_mono 10 ncases 10 ltac:(lia) E2) as D. change (10 / 10) with 1 in D. lia.
    - intros e He. apply in_app_or in He as [He|He]; [|apply G3, He]. split; [|apply S3, He].
      rewrite Forall_forall in W. apply W. rewrite <- S2. apply in_map, He.
  Qed.

  (** *** Exceptions *)
  Lemma printed_spec : forall n, printed_column n = match n with 0 | 1 => None | 2 => Some MaxReward | 3 => Some MeanReward | _ => Some (Value 3) end.
  Proof. intros [|[|[|[|n]]]]; reflexivity. Qed.
  Theorem es_one_parameter : forall (ds : list (dist V)) ncases init x, List.length ds <= 1 -> snd (es_run fit by_name ds ncases init x) = None.
  Proof.
    intros ds ncases init x H. unfold es_run. destruct (all_some _); [|reflexivity]. cbn [snd]. destruct (snd _); [|reflexivity].
    rewrite printed_spec. destruct (List.length ds) as [|[|n]]; [reflexivity..|lia].
  Qed.
  Theorem es_reported : forall (ds : list (dist V)) ncases init x c f, snd (es_run fit by_name ds ncases init x) = Some (c, f) ->
    f = 0 /\ c = match List.length ds with 2 => MaxReward | 3 => MeanReward | _ => Value 3 end.
  Proof.
    intros ds ncases init x c f H. unfold es_run in H. destruct (all_some _); [|discriminate]. cbn [snd] in H. destruct (snd _); [|discriminate].
    rewrite printed_spec in H. destruct (List.length ds) as [|[|[|[|n]]]]; cbn [option_map] in H; try discriminate; injection H as <- <-; split; reflexivity.
  Qed.
  Lemma mutES_none : forall (ds : list (dist V)) x p i lo, List.length ds = List.length p -> nth_error ds i = Some (DInt lo lo) -> Forall2 within ds p -> mutES ds x p = None.
  Proof.
    intros ds x p i lo L H W. unfold mutES. apply all_some_none.
    apply forall2_nth in W as [_ W]. destruct (nth_error p i) as [g|] eqn:E.
    2: { apply nth_error_None in E. rewrite <- L in E. apply nth_error_None in E. congruence. }
    specialize (W i _ _ H E). destruct g as [q|z|v]; cbn [within] in W; try contradiction. assert (z = lo) by lia. subst z.
    apply in_map_iff. exists ((DInt lo lo, GInt lo), i). split.
    - cbn [fst snd mutate_gene]. unfold zrange. replace (Z.to_nat (lo + 1 - lo)) with 1 by lia. cbn [seq map remove_first].
      replace (lo + Z.of_nat 0 =? lo)%Z with true by (symmetry; apply Z.eqb_eq; lia). cbn [List.length]. destruct (gpick (x i) mod 0); reflexivity.
    - assert (G : forall (a : list (dist V)) (b : ind) k s, nth_error a k = Some (DInt lo lo) -> nth_error b k = Some (GInt lo) -> In ((DInt lo lo, GInt lo), s + k) (combine (combine a b) (seq s (List.length b)))).
      { clear. induction a as [|y a IH]; intros [|z b] [|k] s Ha Hb; cbn [nth_error] in *; try discriminate; cbn [List.length seq combine].
        - injection Ha as ->. injection Hb as ->. left. f_equal. lia.
        - right. replace (s + S k) with (S s + k) by lia. apply IH; assumption. }
      apply (G ds p i 0 H E).
  Qed.
  Theorem es_constant_int : forall (ds : list (dist V)) ncases init x i lo, (forall i j, unit (init i j)) -> 20 <= ncases -> nth_error ds i = Some (DInt lo lo) ->
    (exists j, j < 10 /\ Qle (1#2) (calpha (x (ncases / 10 - 1) j)) /\ Qlt (calpha (x (ncases / 10 - 1) j)) (7#10)) -> snd (es_run fit by_name ds ncases init x) = None.
  Proof.
    intros ds ncases init x i lo U Hn Hi (j & Hj & A1 & A2). unfold es_run. destruct (all_some _) as [pop|] eqn:E; [|reflexivity]. cbn [snd].
    assert (W : Forall (Forall2 within ds) pop).
    { apply all_some_spec in E. apply Forall_forall. intros c Hc. assert (H : In (Some c) (map Some pop)) by (apply in_map, Hc). rewrite <- E in H.
      apply in_map_iff in H as (k & H & _). apply (sample_all_within _ _ _ _ (U k) H). }
    assert (G : ngens ncases - 1 = S (ncases / 10 - 2)).
    { unfold ngens, popsize. replace (ncases <? 10) with false by (symmetry; apply Nat.ltb_ge; lia).
      pose proof (Nat.div_le_mono 20 ncases 10 ltac:(lia) Hn) as D. change (20 / 10) with 2 in D. lia. }
    assert (G' : ngens ncases - 1 = ncases / 10 - 1).
    { unfold ngens, popsize. replace (ncases <? 10) with false by (symmetry; apply Nat.ltb_ge; lia). reflexivity. }
    assert (X : offspring ds pop (x (ngens ncases - 1)) = None).
    { rewrite G'. unfold offspring. apply all_some_none. apply in_map_iff. exists j. split; [|apply in_seq; unfold popsize; lia].
      unfold child. replace (Qle_bool (1 # 2) (calpha (x (ncases / 10 - 1) j))) with true by (symmetry; apply Qle_bool_iff, A1). cbn [negb].
      replace (Qle_bool ((1 # 2) + (2 # 10)) (calpha (x (ncases / 10 - 1) j))) with false.
      2: { symmetry. apply not_true_is_false. intros C. apply Qle_bool_iff in C. lra. }
      cbn [negb]. destruct (nth_error pop _) as [p|] eqn:Ep; [|reflexivity]. rewrite Forall_forall in W. pose proof (W _ (nth_error_In _ _ Ep)) as Wp.
      apply (mutES_none ds _ p i lo); [apply (forall2_len _ _ _ _ _ Wp)|exact Hi|exact Wp]. }
    rewrite G in *. cbn [generations]. rewrite X. reflexivity.
  Qed.
  Lemma generations_mixed : forall (ds : list (dist V)) x k first pop e1 e2 g, let r := generations fit by_name ds x k first pop in
    In e1 (fst r) -> In e2 (fst r) -> first + 10 * g <= ecase e1 < first + 10 * g + 10 -> first + 10 * g <= ecase e2 < first + 10 * g + 10 -> efit e1 = None -> efit e2 <> None -> snd r = false.
  Proof.
    intros ds x; induction k as [|k IH]; intros first pop e1 e2 g r H1 H2 I1 I2 N1 N2; [destruct H1|]. unfold r in *. clear r. cbn [generations] in *.
    destruct (offspring ds pop (x (S k))) as [l|] eqn:E; [|destruct H1].
    assert (Ll : List.length l = popsize) by (unfold offspring in E; apply all_some_length in E; rewrite map_length, seq_length in E; exact E).
    destruct (evaluate_spec l first) as (S1 & _ & _).
    destruct (select by_name (evaluate fit first l)) as [pop'|] eqn:E'; [|reflexivity]. cbn [fst snd] in *.
    assert (B : forall e, In e (evaluate fit first l) -> first <= ecase e < first + 10).
    { intros e He. apply (in_map ecase) in He. rewrite S1, Ll in He. apply in_seq in He. exact He. }
    assert (B' : forall e, In e (fst (generations fit by_name ds x k (first + popsize) pop')) -> first + 10 <= ecase e).
    { clear. intros e. assert (K : forall f pop, In e (fst (generations fit by_name ds x k f pop)) -> f <= ecase e).
      { induction k as [|k IH]; intros f pop H; [destruct H|]. cbn [generations] in H. destruct (offspring ds pop (x (S k))) as [l|]; [|destruct H].
        assert (Z : In e (evaluate fit f l) -> f <= ecase e).
        { intros He. destruct (evaluate_spec l f) as (S1 & _ & _). apply (in_map ecase) in He. rewrite S1 in He. apply in_seq in He. lia. }
        destruct (select by_name (evaluate fit f l)); [|apply Z, H]. cbn [fst] in H. apply in_app_or in H as [H|H]; [apply Z, H|]. apply IH in H. lia. }
      intros H. apply K in H. exact H. }
    destruct g as [|g].
    - apply in_app_or in H1 as [H1|H1]; [|apply B' in H1; lia]. apply in_app_or in H2 as [H2|H2]; [|apply B' in H2; lia].
      rewrite (select_mixed _ _ _ H1 H2 N1 N2) in E'. discriminate.
    - apply in_app_or in H1 as [H1|H1]; [apply B in H1; lia|]. apply in_app_or in H2 as [H2|H2]; [apply B in H2; lia|].
      apply (IH (first + popsize) pop' e1 e2 g); [assumption..|unfold popsize; lia|unfold popsize; lia|assumption|assumption].
  Qed.
  Theorem es_failed : forall (ds : list (dist V)) ncases init x e1 e2 g, let r := es_run fit by_name ds ncases init x in
    In e1 (fst r) -> In e2 (fst r) -> 1 <= g -> 10 * g < ecase e1 <= 10 * g + 10 -> 10 * g < ecase e2 <= 10 * g + 10 -> efit e1 = None -> efit e2 <> None -> snd r = None.
  Proof.
    intros ds ncases init x e1 e2 g r H1 H2 G I1 I2 N1 N2. unfold r, es_run in *. clear r. destruct (all_some _) as [pop|] eqn:E; [|destruct H1]. cbn [fst snd] in *.
    assert (L : List.length pop = popsize) by (apply all_some_length in E; rewrite map_length, seq_length in E; exact E).
    destruct (evaluate_spec pop 1) as (S1 & _ & _).
    assert (B : forall e, In e (evaluate fit 1 pop) -> ecase e <= 10).
    { intros e He. apply (in_map ecase) in He. rewrite S1, L in He. apply in_seq in He. unfold popsize in He. lia. }
    apply in_app_or in H1 as [H1|H1]; [apply B in H1; lia|]. apply in_app_or in H2 as [H2|H2]; [apply B in H2; lia|].
    rewrite (generations_mixed _ _ _ _ _ e1 e2 (g - 1) H1 H2); [reflexivity|unfold popsize; lia|unfold popsize; lia|assumption|assumption].
  Qed.
End Evo.

(** ** Bayes *)
Lemma bayes_process_seq : forall k i, bayes_process k i = seq (i + 1) k.
Proof. induction k as [|k IH]; intros i; [reflexivity|]. cbn [bayes_process seq]. rewrite IH. f_equal. f_equal. lia. Qed.
Theorem bayes_numbers : forall ncores ncases, bayes_ids ncores ncases = seq 1 (ncores * bayes_calls ncores ncases).
Proof.
  intros ncores ncases. unfold bayes_ids. set (n := bayes_calls ncores ncases). destruct (ncores =? 1) eqn:E.
  - apply Nat.eqb_eq in E. rewrite bayes_process_seq, E, Nat.mul_1_l. reflexivity.
  - assert (G : forall k i, flat_map (bayes_process n) (bayes_starts n k i) = seq (i + 1) (k * n)).
    { induction k as [|k IH]; intros i; [reflexivity|]. cbn [bayes_starts flat_map]. rewrite IH, bayes_process_seq.
      replace (S k * n) with (n + k * n) by lia. rewrite seq_app. f_equal. f_equal. lia. }
    apply (G ncores 0).
Qed.
Theorem bayes_count : forall ncores ncases, 0 < ncores ->
  List.length (bayes_ids ncores ncases) = (if ncores =? 1 then Nat.max 11 ncases else if ncases <? 11 * ncores then 11 * ncores else ncores * (ncases / ncores)).
Proof.
  intros ncores ncases H. rewrite bayes_numbers, seq_length. unfold bayes_calls. destruct (ncores =? 1) eqn:E.
  - apply Nat.eqb_eq in E. subst. lia.
  - destruct (ncases <? 11 * ncores) eqn:E1.
    + apply Nat.ltb_lt in E1. assert (D : ncases / ncores < 11) by (apply Nat.div_lt_upper_bound; lia). rewrite Nat.max_l by lia. lia.
    + apply Nat.ltb_ge in E1. assert (D : 11 <= ncases / ncores) by (apply Nat.div_le_lower_bound; lia). rewrite Nat.max_r by lia. reflexivity.
Qed.
