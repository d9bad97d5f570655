(** Proofs about reference points and about the selections of NSGA-II and NSGA-III. *)
From Coq Require Import List Arith ZArith QArith Bool Lia Lqa Permutation Sorted.
From Verif Require Import Base BaseFacts Space_Model Opt_Model Opt_Facts ND_Model ND_Spec ND_Proofs.
Import ListNotations.
Open Scope nat_scope.

(** ** Reference points *)
Fixpoint comps (todo left : nat) : list (list nat) :=
  match todo with
  | O => []
  | S O => [[left]]
  | S t => flat_map (fun i => map (cons i) (comps t (left - i))) (seq 0 (left + 1))
  end.

Lemma comps_SS t left : comps (S (S t)) left = flat_map (fun i => map (cons i) (comps (S t) (left - i))) (seq 0 (left + 1)).
Proof. reflexivity. Qed.
Lemma gen_refs_SS t pre left total : gen_refs (S (S t)) pre left total =
  flat_map (fun i => gen_refs (S t) (pre ++ [fraction total i]) (left - i) total) (seq 0 (left + 1)).
Proof. reflexivity. Qed.

Lemma map_flat_map {A B C} (g : B -> C) (f : A -> list B) l : map g (flat_map f l) = flat_map (fun x => map g (f x)) l.
Proof. induction l; simpl; auto. rewrite map_app, IHl. auto. Qed.

Lemma gen_refs_comps total : forall t pre left, gen_refs (S t) pre left total =
  map (fun a => pre ++ map (fraction total) a) (comps (S t) left).
Proof.
  induction t as [|t IH]; intros pre left; [reflexivity|].
  rewrite gen_refs_SS, comps_SS, map_flat_map. apply flat_map_ext. intro i. rewrite IH, map_map. apply map_ext. intro a.
  rewrite <- app_assoc. reflexivity.
Qed.

Lemma comps_In : forall t left a, In a (comps (S t) left) <-> simplex_point (S t) left a.
Proof.
  unfold simplex_point. induction t as [|t IH]; intros left a.
  - simpl. split.
    + intros [<-|[]]. simpl. split; auto.
    + intros [L E]. destruct a as [|x [|y a]]; try discriminate L. simpl in E. left. f_equal. lia.
  - rewrite comps_SS, in_flat_map. split.
    + intros (i & Hi & H). apply in_seq in Hi. apply in_map_iff in H. destruct H as (b & <- & Hb). apply IH in Hb.
      destruct Hb as [L E]. simpl. split; [lia|]. rewrite E. lia.
    + intros [L E]. destruct a as [|i b]; [discriminate|]. simpl in L, E. exists i. split; [apply in_seq; lia|].
      apply in_map. apply IH. split; lia.
Qed.

Lemma NoDup_flat_map {A B} (f : A -> list B) l : NoDup l -> (forall x, In x l -> NoDup (f x)) ->
  (forall x y b, In x l -> In y l -> In b (f x) -> In b (f y) -> x = y) -> NoDup (flat_map f l).
Proof.
  induction l as [|x l IH]; intros N F D; simpl; [constructor|]. inversion N; subst. apply NoDup_app_iff.
  split; [apply F; simpl; auto|split].
  - apply IH; auto.
    + intros y Hy. apply F. simpl. auto.
    + intros y z b Hy Hz. apply D; simpl; auto.
  - intros b Hb K. apply in_flat_map in K. destruct K as (y & Hy & K). assert (x = y) by (eapply D; simpl; eauto). subst. auto.
Qed.

Lemma comps_NoDup : forall t left, NoDup (comps (S t) left).
Proof.
  induction t as [|t IH]; intro left; [simpl; constructor; simpl; auto; constructor|].
  rewrite comps_SS. apply NoDup_flat_map.
  - apply seq_NoDup.
  - intros i _. apply FinFun.Injective_map_NoDup; auto. intros a b E. congruence.
  - intros i j b _ _ Hi Hj. apply in_map_iff in Hi, Hj. destruct Hi as (a1 & <- & _), Hj as (a2 & E & _). congruence.
Qed.

Lemma binom_gt : forall n k, n < k -> binom n k = 0.
Proof.
  induction n; destruct k; intros; try lia; auto. simpl. rewrite !IHn by lia. auto.
Qed.
Lemma binom_0 n : binom n 0 = 1.
Proof. destruct n; auto. Qed.
Lemma binom_diag : forall n, binom n n = 1.
Proof. induction n; auto. simpl. rewrite IHn, binom_gt by lia. auto. Qed.

Definition sum_nat (l : list nat) : nat := fold_right Nat.add 0 l.
Lemma sum_nat_app a b : sum_nat (a ++ b) = sum_nat a + sum_nat b.
Proof. induction a; simpl; auto. lia. Qed.

Lemma length_flat_map {A B} (f : A -> list B) l : length (flat_map f l) = sum_nat (map (fun x => length (f x)) l).
Proof. induction l; simpl; auto. rewrite app_length, IHl. auto. Qed.

Lemma sum_rev_seq (f : nat -> nat) : forall n, sum_nat (map (fun i => f (n - i)) (seq 0 (n + 1))) = sum_nat (map f (seq 0 (n + 1))).
Proof.
  intro n. replace (n + 1) with (S n) by lia. induction n as [|n IH]; [reflexivity|].
  rewrite (seq_S (S n) 0) at 2. rewrite map_app, sum_nat_app, <- IH.
  change (seq 0 (S (S n))) with (0 :: seq 1 (S n)). cbn [map sum_nat fold_right plus].
  fold (sum_nat (map (fun i => f (S n - i)) (seq 1 (S n)))).
  rewrite <- seq_shift, map_map. rewrite (map_ext (fun x => f (S n - S x)) (fun i => f (n - i))) by auto.
  replace (S n - 0) with (S n) by lia. lia.
Qed.

Lemma hockey t : forall L, sum_nat (map (fun j => binom (t + j) j) (seq 0 (L + 1))) = binom (t + L + 1) L.
Proof.
  induction L as [|L IH]; [simpl; rewrite !binom_0; auto|].
  replace (S L + 1) with (S (L + 1)) by lia. rewrite seq_S, map_app, sum_nat_app, IH. cbn [map sum_nat fold_right plus].
  replace (t + S L + 1) with (S (t + L + 1)) by lia. cbn [binom].
  replace (L + 1) with (S L) by lia. replace (t + S L) with (t + L + 1) by lia. lia.
Qed.

Lemma comps_length : forall t left, length (comps (S t) left) = binom (t + left) left.
Proof.
  induction t as [|t IH]; intro left; [simpl; rewrite binom_diag; auto|].
  rewrite comps_SS, length_flat_map.
  rewrite (map_ext _ (fun i => (fun j => binom (t + j) j) (left - i))) by (intro i; rewrite map_length, IH; auto).
  rewrite (sum_rev_seq (fun j => binom (t + j) j)), hockey. f_equal. lia.
Qed.

Lemma fraction_inj p a b : 0 < p -> (fraction p a == fraction p b)%Q -> a = b.
Proof.
  intros Hp E. unfold fraction in E.
  assert (N : ~ (inject_Z (Z.of_nat p) == 0)%Q).
  { change 0%Q with (inject_Z 0). rewrite inject_Z_injective. lia. }
  assert (E2 : (inject_Z (Z.of_nat a) == inject_Z (Z.of_nat b))%Q).
  { rewrite <- (Qmult_div_r (inject_Z (Z.of_nat a)) (inject_Z (Z.of_nat p))) by auto.
    rewrite E. rewrite Qmult_div_r by auto. lra. }
  rewrite inject_Z_injective in E2. lia.
Qed.

Lemma fractions_inj p a : forall b, 0 < p -> Forall2 Qeq (map (fraction p) a) (map (fraction p) b) -> a = b.
Proof.
  induction a as [|x a IH]; intros [|y b] Hp F; inversion F; subst; auto. f_equal; auto. eapply fraction_inj; eauto.
Qed.

Lemma fraction_nonneg p a : 0 < p -> (0 <= fraction p a)%Q.
Proof.
  intro Hp. unfold fraction. apply Qle_shift_div_l.
  - change 0%Q with (inject_Z 0). rewrite <- Zlt_Qlt. lia.
  - rewrite Qmult_0_l. change 0%Q with (inject_Z 0). rewrite <- Zle_Qle. lia.
Qed.

Lemma total_fraction p a : 0 < p -> (total (map (fraction p) a) == fraction p (fold_right Nat.add 0%nat a))%Q.
Proof.
  intro Hp.
  assert (N : ~ (inject_Z (Z.of_nat p) == 0)%Q).
  { change 0%Q with (inject_Z 0). rewrite inject_Z_injective. lia. }
  induction a as [|x a IH]; simpl.
  - unfold fraction. simpl. unfold Qdiv. rewrite Qmult_0_l. lra.
  - rewrite IH. unfold fraction. rewrite Nat2Z.inj_add, inject_Z_plus. field. auto.
Qed.

Lemma total_Qeq a b : Forall2 Qeq a b -> (total a == total b)%Q.
Proof. induction 1; simpl; [lra|]. rewrite H, IHForall2. lra. Qed.

Lemma fraction_one p : 0 < p -> (fraction p p == 1)%Q.
Proof.
  intro Hp. unfold fraction. field. change 0%Q with (inject_Z 0). rewrite inject_Z_injective. lia.
Qed.

Lemma refs_spec M p pts : uniform_reference_points M p = Some pts ->
  length pts = binom (M + p - 1) p /\
  (forall i j a b, nth_error pts i = Some a -> nth_error pts j = Some b -> Forall2 Qeq a b -> i = j) /\
  (forall v, (exists w, In w pts /\ Forall2 Qeq v w) <->
             (length v = M /\ Forall (fun x => exists a, (x == fraction p a)%Q) v /\ (total v == 1)%Q)).
Proof.
  unfold uniform_reference_points. destruct (Nat.eqb_spec p 0); [discriminate|]. destruct (Nat.eqb_spec M 0); [discriminate|].
  cbn [orb]. intro E. assert (E' : pts = gen_refs M [] p p) by congruence. clear E. destruct M as [|t]; [lia|].
  rewrite gen_refs_comps in E'. cbn [app] in E'. subst pts. assert (Hp : 0 < p) by lia. split; [|split].
  - rewrite map_length, comps_length. f_equal. lia.
  - intros i j a b Ha Hb F. rewrite nth_error_map in Ha, Hb.
    destruct (nth_error (comps (S t) p) i) as [a'|] eqn:Ea; [|discriminate].
    destruct (nth_error (comps (S t) p) j) as [b'|] eqn:Eb; [|discriminate]. simpl in Ha, Hb.
    inversion Ha; inversion Hb; subst. apply fractions_inj in F; auto. subst b'.
    eapply (proj1 (NoDup_nth_error _) (comps_NoDup t p)); [apply nth_error_Some; congruence|congruence].
  - intro v. split.
    + intros (w & Hw & F). apply in_map_iff in Hw. destruct Hw as (a & <- & Ha). apply comps_In in Ha. destruct Ha as [L S].
      split; [|split].
      * apply Forall2_length in F. rewrite map_length in F. congruence.
      * clear -F. remember (map (fraction p) a) as u eqn:Eu. revert a Eu. induction F; intros a Eu; constructor.
        -- destruct a; simpl in Eu; inversion Eu; subst. eauto.
        -- destruct a as [|z a]; simpl in Eu; inversion Eu; subst. eauto.
      * rewrite (total_Qeq _ _ F), total_fraction, S by auto. apply fraction_one; auto.
    + intros (L & F & T).
      assert (X : exists a, length a = length v /\ Forall2 Qeq v (map (fraction p) a)).
      { clear L T. induction F as [|x v (a & Ha) F (b & Lb & Hb)]; [exists []; split; simpl; auto|].
        exists (a :: b). split; simpl; auto. }
      destruct X as (a & La & Fa). exists (map (fraction p) a). split; auto. apply in_map. apply comps_In. split; [congruence|].
      rewrite (total_Qeq _ _ Fa), total_fraction in T by auto. rewrite <- (fraction_one p Hp) in T.
      eapply fraction_inj; eauto.
Qed.

Lemma refs_exists M p : 0 < M -> 0 < p -> exists pts, uniform_reference_points M p = Some pts.
Proof.
  intros. unfold uniform_reference_points. destruct (Nat.eqb_spec p 0); [lia|]. destruct (Nat.eqb_spec M 0); [lia|]. simpl. eauto.
Qed.

(** ** Whole levels first *)
Lemma levels_lt ws fronts i : levels ws fronts -> In i (concat fronts) -> i < length ws.
Proof.
  intros [_ L] H. apply in_concat in H. destruct H as (F & HF & Hi). apply In_nth_error in HF. destruct HF as (r & HF).
  apply (L _ _ HF) in Hi. destruct Hi as [C _]. eapply climbs_lt; eauto.
Qed.

Lemma rank_total ws m i : objectives m ws -> i < length ws -> exists r, rank ws i r.
Proof.
  intros O Hi. destruct (sort_levels ws m (length ws) O) as (fs & _ & L & [A _]); try (destruct ws; simpl in *; [lia|congruence || lia]).
  rewrite Nat.min_id in A.
  assert (K : In i (concat fs)).
  { destruct (in_dec Nat.eq_dec i (concat fs)) as [|N]; auto. exfalso.
    assert (ND : NoDup (i :: concat fs)) by (constructor; auto; apply L).
    assert (I : incl (i :: concat fs) (seq 0 (length ws))).
    { intros x [<-|Hx]; apply in_seq; [lia|]. apply (levels_lt _ _ _ L) in Hx. lia. }
    apply (NoDup_incl_length ND) in I. rewrite seq_length in I. simpl in I. lia. }
  apply in_concat in K. destruct K as (F & HF & K). apply In_nth_error in HF. destruct HF as (r & HF).
  destruct L as [_ L]. exists r. apply (L _ _ HF). auto.
Qed.

Lemma beats_rank ws m i j s : objectives m ws -> beats ws i j -> rank ws j s -> exists r, rank ws i r /\ r < s.
Proof.
  intros O B [_ M]. destruct (beats_lt _ _ _ B) as [Hi _]. destruct (rank_total ws m i O Hi) as (r & R).
  exists r. split; auto. assert (climbs ws j (S r)) by (econstructor; eauto; apply R). apply M in H. lia.
Qed.

Lemma sel_elitist ws m k fronts part : objectives m ws -> levels ws fronts -> just_enough (length ws) k fronts -> k <= length ws ->
  NoDup part -> incl part (last fronts []) -> length part = k - length (concat (removelast fronts)) ->
  elitist ws k (concat (removelast fronts) ++ part).
Proof.
  intros O L [J1 J2] Hk NP IP LP. destruct fronts as [|F fs _] using rev_ind; [simpl in *; lia|].
  rewrite removelast_last in *. rewrite last_last in IP.
  assert (EC : concat (fs ++ [F]) = concat fs ++ F) by (rewrite concat_app; simpl; rewrite app_nil_r; auto).
  rewrite EC in J1. rewrite app_length in J1.
  assert (Inc : incl (concat fs ++ part) (concat (fs ++ [F]))).
  { rewrite EC. intros x Hx. apply in_app_or in Hx. apply in_or_app. destruct Hx; auto. }
  assert (NL : NoDup (concat fs ++ F)) by (rewrite <- EC; apply L).
  apply NoDup_app_iff in NL. destruct NL as (N1 & N2 & N3).
  assert (Low : forall i r, rank ws i r -> r < length fs -> In i (concat fs)).
  { intros i r R Hr. destruct (nth_error fs r) as [G|] eqn:EG; [|apply nth_error_None in EG; lia].
    destruct L as [_ L]. apply in_concat. exists G. split; [eapply nth_error_In; eauto|]. apply (L r G); auto.
    rewrite nth_error_app1 by auto. auto. }
  assert (Up : forall j s, In j (concat fs ++ part) -> rank ws j s -> s <= length fs).
  { intros j s Hj R. apply Inc in Hj. apply in_concat in Hj. destruct Hj as (G & HG & Hj). apply In_nth_error in HG. destruct HG as (t & HG).
    assert (R' : rank ws j t) by (destruct L as [_ L]; apply (L _ _ HG); auto).
    rewrite (rank_unique ws j s t R R').
    assert (t < length (fs ++ [F])) by (apply nth_error_Some; congruence). rewrite app_length in H. simpl in H. lia. }
  split; [|split; [|split; [|split]]].
  - rewrite app_length, LP. lia.
  - apply NoDup_app_iff. split; [auto|split; [auto|]]. intros x Hx K. apply (N3 x); auto.
  - intros i Hi. apply (levels_lt _ _ _ L). auto.
  - intros i j Hj B. destruct (beats_lt _ _ _ B) as [_ Hjn]. destruct (rank_total ws m j O Hjn) as (s & R).
    destruct (beats_rank ws m i j s O B R) as (r & R' & Hr). apply in_or_app. left. eapply Low; eauto.
    apply (Up j s Hj) in R. lia.
  - intros i j r s Hj Ri Rj Hr. apply in_or_app. left. eapply Low; eauto. apply (Up j s Hj) in Rj. lia.
Qed.

Lemma last_size n k fronts : just_enough n k fronts -> k <= n ->
  k - length (concat (removelast fronts)) <= length (last fronts []) /\ length (concat (removelast fronts)) < k.
Proof.
  intros [J1 J2] Hk. destruct fronts as [|F fs _] using rev_ind; [simpl in *; lia|].
  rewrite removelast_last, last_last in *. rewrite concat_app, app_length in J1. simpl in J1. rewrite app_nil_r in J1. lia.
Qed.

(** ** Crowding distance *)
Lemma insert_ext_perm {A} (key : A -> ext) x l : Permutation (insert_ext key x l) (x :: l).
Proof.
  induction l as [|y l IH]; simpl; auto. destruct (ext_leb (key y) (key x)); auto.
  rewrite IH. apply perm_swap.
Qed.
Lemma stable_ext_perm {A} (key : A -> ext) l : Permutation (stable_ext_desc key l) l.
Proof. induction l as [|x l IH]; simpl; auto. rewrite insert_ext_perm. auto. Qed.

Lemma ext_leb_tot a b : ext_leb a b = false -> ext_leb b a = true.
Proof. destruct a, b; simpl; auto; try discriminate. intro H. apply Qle_bool_iff. apply Qle_bool_false in H. lra. Qed.
Lemma ext_leb_tr a b c : ext_leb a b = true -> ext_leb b c = true -> ext_leb a c = true.
Proof. destruct a, b, c; simpl; auto; try discriminate. rewrite !Qle_bool_iff. intros. lra. Qed.

Lemma insert_ext_sorted {A} (key : A -> ext) x l : StronglySorted (fun a b => ext_le (key b) (key a)) l ->
  StronglySorted (fun a b => ext_le (key b) (key a)) (insert_ext key x l).
Proof.
  induction l as [|y l IH]; intro H; simpl; [repeat constructor|]. inversion H; subst.
  destruct (ext_leb (key y) (key x)) eqn:E.
  - constructor; auto. constructor; [exact E|]. eapply Forall_impl; [|exact H3]. intros a Ha. exact (ext_leb_tr _ _ _ Ha E).
  - constructor; auto. apply Forall_forall. intros a Ha. apply (Permutation_in _ (insert_ext_perm key x l)) in Ha.
    destruct Ha as [<-|Ha]; [apply ext_leb_tot; auto|]. rewrite Forall_forall in H3. auto.
Qed.
Lemma stable_ext_sorted {A} (key : A -> ext) l : StronglySorted (fun a b => ext_le (key b) (key a)) (stable_ext_desc key l).
Proof. induction l; simpl; [constructor|]. apply insert_ext_sorted; auto. Qed.

Lemma snd_combine_seq {A} (l : list A) s : map snd (combine (seq s (length l)) l) = l.
Proof. revert s. induction l; intro s; simpl; auto. f_equal. auto. Qed.

Lemma crowd_pick_perm ws front l : crowd_pick ws front = Some l -> Permutation l front.
Proof.
  unfold crowd_pick. destruct (assignCrowdingDist _) as [d|]; [|discriminate]. intro E.
  assert (El : l = map snd (stable_ext_desc (fun e => d (fst e)) (combine (seq 0 (length front)) front))) by congruence. subst l.
  rewrite stable_ext_perm, snd_combine_seq. auto.
Qed.
Lemma crowd_pick_some ws front : front <> [] -> exists l, crowd_pick ws front = Some l.
Proof.
  intro N. unfold crowd_pick. destruct front as [|a r]; [congruence|]. simpl map. unfold assignCrowdingDist. eauto.
Qed.

Lemma NoDup_last ws fronts : levels ws fronts -> NoDup (last fronts []).
Proof.
  intros [N _]. destruct fronts as [|F fs _] using rev_ind; [constructor|]. rewrite last_last. rewrite concat_app in N. simpl in N.
  rewrite app_nil_r in N. apply NoDup_app_iff in N. tauto.
Qed.

Lemma NoDup_firstn {A} (l : list A) k : NoDup l -> NoDup (firstn k l).
Proof. intro H. rewrite <- (firstn_skipn k l) in H. apply NoDup_app_iff in H. tauto. Qed.

Lemma select2_spec ws m k fronts : objectives m ws -> levels ws fronts -> just_enough (length ws) k fronts -> k <= length ws ->
  exists l, crowd_pick ws (last fronts []) = Some l /\
    select2 ws fronts k = Some (concat (removelast fronts) ++ firstn (k - length (concat (removelast fronts))) l) /\
    elitist ws k (concat (removelast fronts) ++ firstn (k - length (concat (removelast fronts))) l).
Proof.
  intros O L J Hk. destruct (last_size _ _ _ J Hk) as [A B].
  destruct (crowd_pick_some ws (last fronts [])) as (l & El).
  { intro E. rewrite E in A. simpl in A. lia. }
  exists l. split; auto. pose proof (crowd_pick_perm _ _ _ El) as P. split.
  - unfold select2. rewrite (proj2 (Nat.ltb_lt _ _) B), El. auto.
  - eapply sel_elitist; eauto.
    + apply NoDup_firstn. eapply Permutation_NoDup; [symmetry; eauto|]. eapply NoDup_last; eauto.
    + intros x Hx. apply in_firstn in Hx. eapply Permutation_in; eauto.
    + rewrite firstn_length, (Permutation_length P). lia.
Qed.
