(** sortLogNondominated returns the nondomination levels. *)
From Coq Require Import List Arith ZArith QArith Bool Lia Lqa Permutation Sorting.Sorted.
From Verif Require Import Base BaseFacts Opt_Model Opt_Facts ND_Model ND_Spec ND_Proofs NDL_Model NDL_Proofs NDL_Sort.
Import ListNotations.
Open Scope nat_scope.

Lemma distinct_in l x : In x (distinct l) <-> In x l.
Proof.
  induction l as [|a l IH]; simpl; [tauto|]. rewrite filter_In, IH. destruct (key_dec a x) as [->|]; intuition.
Qed.
Lemma NoDup_filter' {A} (p : A -> bool) l : NoDup l -> NoDup (filter p l).
Proof. induction 1; simpl; [constructor|]. destruct (p x); auto. constructor; auto. rewrite filter_In. tauto. Qed.
Lemma distinct_NoDup l : NoDup (distinct l).
Proof.
  induction l as [|a l IH]; simpl; constructor; [|apply NoDup_filter'; auto].
  rewrite filter_In. destruct (key_dec a a); intuition congruence.
Qed.

Lemma lex_insert_in x l y : In y (lex_insert x l) <-> y = x \/ In y l.
Proof.
  induction l as [|a l IH]; simpl; [intuition|]. destruct (lex_ltb x a); simpl; rewrite ?IH; intuition.
Qed.
Lemma lex_sort_in l y : In y (lex_sort l) <-> In y l.
Proof. unfold lex_sort. induction l; simpl; [tauto|]. rewrite lex_insert_in, IHl. intuition. Qed.
Lemma lex_insert_sorted m x l : wf m x -> Forall (wf m) l -> ~ In x l -> sorted l -> sorted (lex_insert x l).
Proof.
  intros Wx Wl N S0. induction S0 as [|a l S0 IH F]; simpl; [constructor; constructor|].
  inversion Wl as [|? ? Wa Wl']; subst. simpl in N. destruct (lex_ltb x a) eqn:E.
  - constructor; [apply IH; tauto|]. apply Forall_forall. intros y Y. apply lex_insert_in in Y. destruct Y as [->|Y]; [exact E|].
    rewrite Forall_forall in F. auto.
  - assert (B : before x a) by (destruct (before_total m x a Wx Wa) as [B|B]; [intros ->; tauto|auto|unfold before in B; congruence]).
    constructor; [constructor; auto|]. constructor; [auto|]. rewrite !Forall_forall in *. intros y Y.
    apply (before_trans m x a y); [apply Wx|apply Wa|apply Wl'; auto|auto|auto].
Qed.
Lemma lex_sort_sorted m l : Forall (wf m) l -> NoDup l -> sorted (lex_sort l).
Proof.
  unfold lex_sort. induction l as [|a l IH]; intros W N; simpl; [constructor|].
  inversion W; subst. apply NoDup_cons_iff in N. destruct N. apply (lex_insert_sorted m); auto.
  - rewrite Forall_forall in *. intros y Y. apply (proj1 (lex_sort_in l y)) in Y. auto.
  - intro Y. apply (proj1 (lex_sort_in l a)) in Y. tauto.
Qed.

Section Top.
Context (ws : list (list Q)) (m : nat) (Hm : 2 <= m) (Hw : objectives m ws).

Let kk (i : nat) : key := reduced (nth i ws []).
Let fits := lex_sort (distinct (map reduced ws)).

Lemma kk_wf i : i < length ws -> wf m (kk i).
Proof.
  intro H. unfold kk. unfold objectives in Hw. rewrite Forall_forall in Hw. rewrite <- (Hw (nth i ws [])) by (apply nth_In; auto).
  apply wf_reduced.
Qed.
Lemma fits_in k : In k fits <-> exists i, i < length ws /\ k = kk i.
Proof.
  unfold fits. rewrite lex_sort_in, distinct_in, in_map_iff. split.
  - intros (w & <- & I). apply (In_nth _ _ []) in I. destruct I as (i & Hi & <-). exists i. auto.
  - intros (i & Hi & ->). exists (nth i ws []). split; [auto|]. apply nth_In. auto.
Qed.
Lemma fits_wf : Forall (wf m) fits.
Proof. apply Forall_forall. intros k K. apply fits_in in K. destruct K as (i & Hi & ->). apply kk_wf. auto. Qed.
Lemma fits_sorted : sorted fits.
Proof.
  apply (lex_sort_sorted m); [|apply distinct_NoDup]. apply Forall_forall. intros k K.
  apply (Forall_forall (wf m) fits); [exact fits_wf|]. unfold fits. apply lex_sort_in. auto.
Qed.

Lemma beats_kk i j : i < length ws -> j < length ws -> (beats ws i j <-> gek m (kk i) (kk j) /\ kk i <> kk j).
Proof.
  intros Hi Hj. unfold beats.
  assert (Li : length (nth i ws []) = m) by (unfold objectives in Hw; rewrite Forall_forall in Hw; apply Hw, nth_In; auto).
  assert (Lj : length (nth j ws []) = m) by (unfold objectives in Hw; rewrite Forall_forall in Hw; apply Hw, nth_In; auto).
  assert (E : (exists a b, nth_error ws i = Some a /\ nth_error ws j = Some b /\ dominates a b) <-> dominates (nth i ws []) (nth j ws [])).
  { split.
    - intros (a & b & A & B & D). erewrite (nth_error_nth ws i) by eauto. erewrite (nth_error_nth ws j) by eauto. auto.
    - intro D. eexists. eexists. split; [apply nth_error_nth'; auto|split; [apply nth_error_nth'; auto|exact D]]. }
  rewrite E. rewrite <- isDominated_spec, isDominated_coord by congruence. rewrite Lj. unfold gek, kk. split.
  - intros [G (d & Hd & D)]. split.
    + intros c Hc. rewrite !coord_reduced. auto.
    + intro Z. pose proof (coord_reduced d (nth i ws [])) as A. pose proof (coord_reduced d (nth j ws [])) as B.
      unfold reduced in *. rewrite Z in A. lra.
  - intros [G N]. split.
    + intros c Hc. specialize (G c Hc). rewrite !coord_reduced in G. auto.
    + destruct (Forall_Exists_dec (fun c => coord c (nth i ws []) <= coord c (nth j ws []))%Q (fun c => match Qlt_le_dec (coord c (nth j ws [])) (coord c (nth i ws [])) with left H => right (Qlt_not_le _ _ H) | right H => left H end) (seq 0 m)) as [F|X].
      * exfalso. apply N. apply (wf_eq m); [apply (kk_wf i); auto|apply (kk_wf j); auto|]. intros c Hc.
        rewrite !coord_reduced. rewrite Forall_forall in F. specialize (F c ltac:(apply in_seq; lia)). specialize (G c Hc). rewrite !coord_reduced in G. lra.
      * apply Exists_exists in X. destruct X as (c & I & X). apply in_seq in I. exists c. split; [lia|]. lra.
Qed.

Lemma levels_of lev :
  (forall i j, beats ws j i -> lev j + 1 <= lev i) ->
  (forall i, i < length ws -> lev i = 0 \/ exists j, beats ws j i /\ lev i = lev j + 1) ->
  forall i r, rank ws i r <-> i < length ws /\ lev i = r.
Proof.
  intros H1 H2.
  assert (C : forall i r, climbs ws i r -> r <= lev i).
  { induction 1; [lia|]. specialize (H1 _ _ H). lia. }
  assert (D : forall r i, i < length ws -> lev i = r -> climbs ws i r).
  { induction r; intros i Hi E.
    - constructor. auto.
    - destruct (H2 i Hi) as [Z|(j & B & Z)]; [lia|]. apply (climbs_S ws i j r B). apply IHr; [|lia].
      apply beats_lt in B. tauto. }
  intros i r. split.
  - intros [Cl Mx]. assert (Hi : i < length ws) by (inversion Cl as [|? ? ? B]; subst; auto; apply beats_lt in B; tauto).
    split; [auto|]. pose proof (C i r Cl). pose proof (Mx (lev i) (D _ i Hi eq_refl)). lia.
  - intros [Hi <-]. split; [apply D; auto|]. apply C.
Qed.

Lemma group_in k i : In i (group ws k) <-> i < length ws /\ kk i = k.
Proof.
  unfold group. rewrite filter_In, in_seq. fold (kk i). destruct (key_dec (kk i) k); intuition (try lia; try congruence).
Qed.

Lemma level_in f r i : In i (level ws fits f r) <-> i < length ws /\ f (kk i) = r.
Proof.
  unfold level. rewrite in_flat_map. split.
  - intros (k & K & I). apply filter_In in K. destruct K as [K E]. apply Nat.eqb_eq in E. apply group_in in I. destruct I as [Hi <-]. auto.
  - intros [Hi E]. exists (kk i). split; [|apply group_in; auto]. apply filter_In. split; [|apply Nat.eqb_eq; auto].
    apply fits_in. exists i. auto.
Qed.

Lemma NoDup_flat_map {A B} (g : A -> list B) l : NoDup l -> (forall a, In a l -> NoDup (g a)) ->
  (forall a b x, In a l -> In b l -> In x (g a) -> In x (g b) -> a = b) -> NoDup (flat_map g l).
Proof.
  induction 1 as [|a l N ND IH]; intros G D; simpl; [constructor|]. apply NoDup_app_iff. split; [apply G; simpl; auto|]. split.
  - apply IH; [intros; apply G; simpl; auto|]. intros b c x Ib Ic. apply D; simpl; auto.
  - intros x X Y. apply in_flat_map in Y. destruct Y as (b & Ib & Y). assert (a = b) by (apply (D a b x); simpl; auto). subst. auto.
Qed.

Lemma level_NoDup f r : NoDup (level ws fits f r).
Proof.
  unfold level. apply NoDup_flat_map.
  - apply NoDup_filter'. apply sorted_NoDup. apply fits_sorted.
  - intros k _. unfold group. apply NoDup_filter'. apply seq_NoDup.
  - intros a b x _ _ Ha Hb. apply group_in in Ha, Hb. destruct Ha as [_ <-], Hb as [_ <-]. auto.
Qed.

Lemma keep_prefix k : forall fronts c, exists rest, fronts = keep k c fronts ++ rest.
Proof.
  induction fronts as [|F fronts IH]; intro c; simpl; [exists []; auto|]. destruct (k <=? c + length F).
  - exists fronts. auto.
  - destruct (IH (c + length F)) as (r & E). exists r. simpl. rewrite <- E. auto.
Qed.
Lemma keep_enough k : forall fronts c, c < k -> (Nat.min k (c + length (concat fronts)) <= c + length (concat (keep k c fronts))) /\
  (fronts <> [] -> c + length (concat (removelast (keep k c fronts))) < k).
Proof.
  induction fronts as [|F fronts IH]; intros c Hc; cbn [keep].
  - simpl. split; [lia|congruence].
  - destruct (k <=? c + length F) eqn:E.
    + apply Nat.leb_le in E. cbn [concat removelast]. rewrite !app_nil_r, app_length. cbn [length]. split; lia.
    + apply Nat.leb_gt in E. destruct (IH (c + length F) E) as [A B]. simpl concat. rewrite !app_length. split; [lia|].
      intros _. destruct fronts as [|G fronts]; [simpl; lia|].
      assert (N : keep k (c + length F) (G :: fronts) <> []) by (cbn [keep]; destruct (_ <=? _); discriminate).
      specialize (B ltac:(discriminate)). destruct (keep k (c + length F) (G :: fronts)) as [|H r]; [congruence|].
      change (removelast (F :: H :: r)) with (F :: removelast (H :: r)). cbn [concat]. rewrite app_length. lia.
Qed.

Lemma last_in (l : list (list nat)) : l <> [] -> In (last l []) l.
Proof. intro N. induction l as [|a [|b l] IH]; [congruence|simpl; auto|]. right. apply IH. discriminate. Qed.

Lemma sort_unfold k : ws <> [] -> 0 < k -> sortLogNondominated ws k =
  obind (helperA (length fits + (m - 1) + 1) fits (m - 1) (fun _ => 0)) (fun front =>
    Done (keep k 0 (map (level ws fits front) (seq 0 (top front fits + 1))))).
Proof.
  intros N K. unfold sortLogNondominated. destruct (k =? 0) eqn:E0; [apply Nat.eqb_eq in E0; lia|].
  unfold fits. unfold objectives in Hw. destruct ws as [|w ws']; [congruence|].
  inversion Hw as [|? ? L _]; subst. reflexivity.
Qed.

Lemma concat_prefix_NoDup (l r : list (list nat)) : NoDup (concat (l ++ r)) -> NoDup (concat l).
Proof. rewrite concat_app. intro H. apply NoDup_app_iff in H. tauto. Qed.

Theorem sortLog_levels k : ws <> [] -> 0 < k ->
  exists fronts, sortLogNondominated ws k = Done fronts /\ levels ws fronts /\ just_enough (length ws) k fronts.
Proof.
  intros N K. rewrite sort_unfold by auto.
  assert (L0 : 0 < length ws) by (destruct (length ws) eqn:L0; [apply length_zero_iff_nil in L0; congruence|lia]).
  destruct (helperA_ok m Hm (length fits + (m - 1) + 1) fits (m - 1) (fun _ => 0)) as (f & E & P & Q); try lia.
  { exact fits_sorted. } { exact fits_wf. }
  { intros a b i _ _ Hi. lia. }
  rewrite E. cbn [obind]. eexists. split; [reflexivity|].
  replace (m - 1 + 1) with m in Q by lia.
  set (lev := fun i => f (kk i)).
  assert (R : forall i r, rank ws i r <-> i < length ws /\ lev i = r).
  { assert (EM : m - 1 + 1 = m) by lia. apply levels_of.
    - intros i j B. pose proof (beats_lt _ _ _ B) as [Hj Hi]. apply beats_kk in B; auto.
      destruct (Q (kk i)) as (_ & U & _); [apply fits_in; exists i; auto|]. unfold lev. apply U.
      unfold A_rel. rewrite EM. split; [apply fits_in; exists j; auto|tauto].
    - intros i Hi. destruct (Q (kk i)) as (_ & _ & [U|(y & (Y & G & Ny) & U)]); [apply fits_in; exists i; auto|left; exact U|].
      right. apply fits_in in Y. destruct Y as (j & Hj & ->). rewrite EM in G. exists j. split; [|exact U].
      apply beats_kk; auto. }
  set (n := top f fits + 1). set (all := map (level ws fits f) (seq 0 n)).
  assert (NDa : NoDup (concat all)).
  { unfold all. rewrite <- flat_map_concat_map. apply NoDup_flat_map; [apply seq_NoDup|intros; apply level_NoDup|].
    intros a b x _ _ Ha Hb. apply level_in in Ha, Hb. lia. }
  destruct (keep_prefix k all 0) as (rest & EP).
  assert (Cov : length ws <= length (concat all)).
  { rewrite <- (seq_length (length ws) 0). apply NoDup_incl_length; [apply seq_NoDup|].
    intros i I. apply in_seq in I. unfold all. rewrite <- flat_map_concat_map. apply in_flat_map. exists (lev i).
    split; [|apply level_in; split; [lia|auto]]. apply in_seq. split; [lia|]. unfold n, lev.
    pose proof (top_ge f fits (kk i)) as T. assert (In (kk i) fits) by (apply fits_in; exists i; split; [lia|auto]). specialize (T H). lia. }
  assert (Sub : length (concat all) <= length ws).
  { rewrite <- (seq_length (length ws) 0). apply NoDup_incl_length; [exact NDa|]. intros i I. unfold all in I.
    rewrite <- flat_map_concat_map in I. apply in_flat_map in I. destruct I as (r & _ & I). apply level_in in I. apply in_seq. lia. }
  assert (Nall : all <> []) by (unfold all, n; rewrite Nat.add_1_r; discriminate).
  assert (LV : levels ws (keep k 0 all)).
  { split; [apply (concat_prefix_NoDup _ rest); rewrite <- EP; exact NDa|].
    intros r F HF i. rewrite R.
    assert (HF' : nth_error all r = Some F).
    { rewrite EP, nth_error_app1; auto. apply nth_error_Some. congruence. }
    unfold all in HF'. rewrite nth_error_map in HF'. destruct (nth_error (seq 0 n) r) eqn:Er; [|discriminate].
    simpl in HF'. inversion HF'; subst F.
    assert (Hr : r < n) by (rewrite <- (seq_length n 0); apply nth_error_Some; congruence).
    pose proof (nth_error_nth _ _ 0 Er) as En. rewrite seq_nth in En by auto. simpl in En. subst n0.
    apply level_in. }
  split; [exact LV|]. destruct (keep_enough k all 0 K) as [A B]. specialize (B Nall). cbn [plus] in *.
  split; [lia|].
  apply Nat.min_glb_lt; [|lia].
  (* the last kept front is inhabited, so without it fewer than all remain *)
  assert (Nk : keep k 0 all <> []) by (destruct all; [congruence|]; cbn [keep]; destruct (_ <=? _); discriminate).
  assert (Ne : forall r, r < n -> level ws fits f r <> []).
  { intros r Hr. assert (X : exists i, rank ws i r).
    { destruct (top_in f fits) as (y & Y & T).
      { intro Z. assert (I0 : In (kk 0) fits) by (apply fits_in; exists 0; auto). rewrite Z in I0. destruct I0. }
      apply fits_in in Y. destruct Y as (i & Hi & ->).
      assert (D : forall d i, i < length ws -> lev i = r + d -> exists j, rank ws j r).
      { clear i Hi T. induction d; intros i Hi Ei; [exists i; apply R; split; [auto|lia]|].
        assert (Ri : rank ws i (r + S d)) by (apply R; auto). destruct Ri as [Cl _].
        rewrite Nat.add_succ_r in Cl. inversion Cl as [|? j ? Bj Cj]; subst.
        assert (Hj : j < length ws) by (apply beats_lt in Bj; tauto).
        assert (Lj : lev j + 1 <= lev i).
        { assert (Rj : rank ws j (lev j)) by (apply R; auto). assert (Ri' : rank ws i (lev i)) by (apply R; auto).
          destruct Rj as [Cj' _]. destruct Ri' as [_ Mi]. specialize (Mi _ (climbs_S _ _ _ _ Bj Cj')). lia. }
        assert (Gj : r + d <= lev j) by (assert (Rj : rank ws j (lev j)) by (apply R; auto); destruct Rj as [_ Mj]; auto).
        apply (IHd j Hj). lia. }
      apply (D (lev i - r) i Hi). unfold n in Hr. unfold lev. lia. }
    destruct X as (i & Ri). apply R in Ri. intro Z. assert (I0 : In i (level ws fits f r)) by (apply level_in; exact Ri).
    rewrite Z in I0. destruct I0. }
  assert (LI : In (last (keep k 0 all) []) all).
  { assert (Z : forall x, In x (keep k 0 all) -> In x all) by (intros x X; rewrite EP; apply in_app_iff; auto). apply Z. apply (last_in (keep k 0 all) Nk). }
  assert (LN : last (keep k 0 all) [] <> []).
  { unfold all at 2 in LI. apply in_map_iff in LI. destruct LI as (r & <- & I). apply Ne. apply in_seq in I. lia. }
  assert (LE : length (concat (keep k 0 all)) <= length ws).
  { etransitivity; [|exact Sub]. rewrite EP at 2. rewrite concat_app, app_length. lia. }
  rewrite (app_removelast_last [] Nk) in LE. rewrite concat_app, app_length in LE. cbn [concat] in LE. rewrite app_nil_r in LE.
  destruct (last (keep k 0 all) []); [congruence|]. cbn [length] in LE. lia.
Qed.
End Top.
