(** Proofs about the genetic operators of NGA. *)
From Coq Require Import List Arith ZArith QArith Qabs Qround Bool Lia Lqa Permutation Sorted.
From Verif Require Import Base BaseFacts Space_Model Space_Spec Space_Facts Opt_Model Opt_Spec Opt_Facts Opt_Facts2
  Pop_Model Pop_Spec Pop_Proofs Swarm_Model HHO_Model HHO_Proofs P2_Model SG_Model SG_Spec SG_Latin.
Import ListNotations.
Open Scope nat_scope.

(* ---------- equal rows ---------- *)
Lemma vec_eqb_iff a : forall b, vec_eqb a b = true <-> Forall2 Qeq a b.
Proof.
  induction a as [|x a IH]; intros [|y b]; simpl; split; intros H; try discriminate; try (inversion H; fail); auto.
  - apply andb_true_iff in H. destruct H as (H1 & H2). constructor; [apply Qeq_bool_iff; auto|apply IH; auto].
  - inversion H; subst. apply andb_true_iff. split; [apply Qeq_bool_iff; auto|apply IH; auto].
Qed.
Lemma rows_refl (x : list Q) : Forall2 Qeq x x.
Proof. induction x; constructor; auto. reflexivity. Qed.
Lemma rows_sym (x y : list Q) : Forall2 Qeq x y -> Forall2 Qeq y x.
Proof. induction 1; constructor; auto. symmetry; auto. Qed.
Lemma rows_trans (x y z : list Q) : Forall2 Qeq x y -> Forall2 Qeq y z -> Forall2 Qeq x z.
Proof. intros H. revert z. induction H; intros z Hz; inversion Hz; subst; constructor; auto. rewrite H. auto. Qed.
Lemma rows_canon (x y : list Q) : map Qred x = map Qred y -> Forall2 Qeq x y.
Proof.
  revert y. induction x as [|a x IH]; intros [|b y] H; simpl in H; try discriminate; constructor; inversion H; auto.
  rewrite <- (Qred_correct a), <- (Qred_correct b), H1. reflexivity.
Qed.
Lemma canon_rows (x y : list Q) : Forall2 Qeq x y -> map Qred x = map Qred y.
Proof. induction 1; simpl; f_equal; auto. apply Qred_complete. auto. Qed.

Lemma distinct_canon rows : distinct_rows rows -> NoDup (map (map Qred) rows).
Proof.
  intros D. apply NoDup_nth_error. intros i j Hi H. rewrite map_length in Hi. rewrite !nth_error_map in H.
  destruct (nth_error rows i) as [x|] eqn:Ei; [|apply nth_error_None in Ei; lia]. cbn [option_map] in H.
  destruct (nth_error rows j) as [y|] eqn:Ej; [|discriminate]. cbn [option_map] in H. inversion H as [E]. apply rows_canon in E.
  destruct (Nat.lt_trichotomy i j) as [L|[L|L]]; auto; exfalso; [apply (D i j x y)|apply (D j i y x)]; auto using rows_sym.
Qed.
Lemma canon_distinct rows : NoDup (map (map Qred) rows) -> distinct_rows rows.
Proof.
  intros N i j x y L Ei Ej E. apply canon_rows in E. rewrite NoDup_nth_error in N.
  assert (i = j); [|lia]. apply N; [rewrite map_length; apply nth_error_Some; congruence|]. rewrite !nth_error_map, Ei, Ej. simpl. congruence.
Qed.
Lemma distinct_perm a b : Permutation a b -> distinct_rows a -> distinct_rows b.
Proof. intros P D. apply canon_distinct. eapply Permutation_NoDup; [|apply distinct_canon; exact D]. apply Permutation_map. auto. Qed.
Lemma distinct_app_l a b : distinct_rows (a ++ b) -> distinct_rows a.
Proof. intros D. apply canon_distinct. apply distinct_canon in D. rewrite map_app in D. eapply NoDup_app_l; eauto. Qed.

(** Represented distinct rows. *)
Lemma represented_length a b : distinct_rows a -> (forall x, In x a -> exists y, In y b /\ Forall2 Qeq x y) -> length a <= length b.
Proof.
  intros D H. rewrite <- (map_length (map Qred) a), <- (map_length (map Qred) b). apply NoDup_incl_length; [apply distinct_canon; auto|].
  intros z Hz. apply in_map_iff in Hz. destruct Hz as (x & <- & Hx). destruct (H x Hx) as (y & Hy & E). rewrite (canon_rows _ _ E). apply in_map. auto.
Qed.

Lemma unique_incl pop : incl (ga_unique pop) pop.
Proof. induction pop as [|x r IH]; simpl; [apply incl_nil_l|]. destruct (existsb _ _); [apply incl_tl; auto|]. apply incl_cons; [left; auto|apply incl_tl; auto]. Qed.
Lemma unique_repr pop x : In x pop -> exists y, In y (ga_unique pop) /\ Forall2 Qeq x y.
Proof.
  induction pop as [|z r IH]; simpl; [tauto|]. intros [->|H].
  - destruct (existsb _ _) eqn:E; [|exists x; split; [left; auto|apply rows_refl]].
    apply existsb_exists in E. destruct E as (y & Hy & E). apply vec_eqb_iff in E. eauto.
  - destruct (IH H) as (y & Hy & E). exists y. split; auto. destruct (existsb _ _); auto. right; auto.
Qed.
Lemma unique_distinct pop : distinct_rows (ga_unique pop).
Proof.
  apply canon_distinct. induction pop as [|x r IH]; simpl; [constructor|]. destruct (existsb _ _) eqn:E; auto. simpl. constructor; auto.
  rewrite in_map_iff. intros (y & Ey & Hy). apply rows_canon in Ey. apply rows_sym in Ey. apply vec_eqb_iff in Ey.
  assert (existsb (vec_eqb x) (ga_unique r) = true) by (apply existsb_exists; eauto). congruence.
Qed.

(* ---------- crossover ---------- *)
Lemma clamp_in d x : (d_lo d <= d_hi d)%Q -> (d_lo d <= ga_clamp d x <= d_hi d)%Q.
Proof. intros H. unfold ga_clamp, qmin2, qmax2. destruct (Qle_bool (d_lo d) x) eqn:E1; qprop; match goal with |- context [Qle_bool ?a ?b] => destruct (Qle_bool a b) eqn:E2 end; qprop; lra. Qed.
Lemma child_inside f ds : Forall (fun d => (d_lo d <= d_hi d)%Q) ds -> forall j x y, length x = length ds -> length y = length ds ->
  inside (dim_bounds ds) (ga_child f j ds x y).
Proof.
  unfold inside, dim_bounds. induction 1 as [|d ds Hd F IH]; intros j [|a x] [|b y] Lx Ly; simpl in *; try discriminate; constructor; auto.
  apply clamp_in. auto.
Qed.
Lemma inside_len ds x : inside (dim_bounds ds) x -> length x = length ds.
Proof. intros H. apply Forall2_length in H. unfold dim_bounds in H. rewrite map_length in H. auto. Qed.

Lemma mate_ok len i k : i < len -> 2 <= len -> exists j, choice (remove_at (seq 0 len) i) k = Some j /\ j < len /\ j <> i.
Proof.
  intros Hi Hl. unfold choice. assert (L : length (remove_at (seq 0 len) i) = len - 1) by (rewrite remove_at_length; rewrite seq_length; auto).
  destruct (nth_error _ _) as [j|] eqn:E; [|apply nth_error_None in E; pose proof (Nat.mod_upper_bound k (length (remove_at (seq 0 len) i))); lia].
  exists j. split; auto. apply nth_error_In in E.
  assert (P : Permutation (seq 0 len) (i :: remove_at (seq 0 len) i)). { apply remove_at_perm. rewrite (nth_error_nth' _ 0) by (rewrite seq_length; auto). rewrite seq_nth; auto. }
  assert (In j (seq 0 len)) by (eapply Permutation_in; [symmetry; exact P|right; auto]). apply in_seq in H. split; [lia|].
  pose proof (seq_NoDup len 0) as N. apply (Permutation_NoDup P) in N. inversion N; subst. intros ->. auto.
Qed.

Lemma crossover_ok ds dr pop pop' : Forall (fun d => (d_lo d <= d_hi d)%Q) ds -> Forall (inside (dim_bounds ds)) pop ->
  ga_crossover ds dr pop = Some pop' -> exists kids, pop' = pop ++ kids /\ length kids = 2 * length pop /\ Forall (inside (dim_bounds ds)) kids.
Proof.
  intros Fd F H. unfold ga_crossover in H.
  apply (gens_nat _ (fun k s => exists kids, s = pop ++ kids /\ length kids = 2 * k /\ Forall (inside (dim_bounds ds)) kids)) in H; [exact H| |exists []; rewrite app_nil_r; auto].
  intros k s s' (kids & -> & Lk & Fk) E. unfold ga_cross in E. apply bind_Some in E. destruct E as (j & Ej & E).
  apply bind_Some in E. destruct E as (x & Ex & E). apply bind_Some in E. destruct E as (y & Ey & E). inversion E; subst s'; clear E.
  assert (Fall : Forall (inside (dim_bounds ds)) (pop ++ kids)) by (apply Forall_app; auto). rewrite Forall_forall in Fall.
  assert (Lx : length x = length ds) by (apply inside_len, Fall; eapply nth_error_In; eauto).
  assert (Ly : length y = length ds) by (apply inside_len, Fall; eapply nth_error_In; eauto).
  eexists. split; [apply app_assoc_reverse|]. rewrite app_length. cbn [length]. split; [lia|]. apply Forall_app. split; auto.
  constructor; [apply child_inside; auto|]. constructor; [apply child_inside; auto|]. constructor.
Qed.
Lemma crossover_total ds dr pop : 2 <= length pop -> exists pop', ga_crossover ds dr pop = Some pop'.
Proof.
  intros L. unfold ga_crossover. destruct (gens_nat_total (ga_cross ds dr (length pop)) (fun _ s => length pop <= length s) (length pop) 0 pop) as (s & -> & _); eauto.
  intros k s Hk Hs. unfold ga_cross. destruct (mate_ok (length pop) k (gx_mate dr k)) as (j & -> & Hj & _); try lia. cbn [bind].
  destruct (nth_len s k) as (x & ->); [lia|]. cbn [bind]. destruct (nth_len s j) as (y & ->); [lia|]. cbn [bind]. eexists. split; eauto. rewrite app_length. lia.
Qed.
Lemma crossover_single ds dr x : ga_crossover ds dr [x] = None.
Proof. unfold ga_crossover, ga_cross, choice. cbn [length gens seq remove_at]. destruct (gx_mate dr 0 mod 0); reflexivity. Qed.

(* ---------- mutation ---------- *)
Lemma pow16 (t : Q) : (0 <= t <= 1)%Q -> (0 <= t ^ 16 <= 1)%Q.
Proof.
  intros (A & B). assert (Sq : forall s, (0 <= s <= 1)%Q -> (0 <= s * s <= 1)%Q).
  { intros s (S0 & S1). split; [apply Qmult_le_0_compat; auto|]. assert (0 <= s * (1 - s))%Q by (apply Qmult_le_0_compat; lra). lra. }
  assert (E : (t ^ 16 == (((t * t) * (t * t)) * ((t * t) * (t * t))) * (((t * t) * (t * t)) * ((t * t) * (t * t))))%Q) by ring.
  rewrite E. do 4 apply Sq. auto.
Qed.

Lemma mut1_ok rt d u x y : root16 rt -> (0 <= u <= 1)%Q -> (d_lo d <= x <= d_hi d)%Q -> ga_mut1 rt d u x = Some y -> (d_lo d <= y <= d_hi d)%Q.
Proof.
  intros R U X H. unfold ga_mut1 in H. cbv zeta in H. destruct (Qeq_bool _ 0) eqn:E; [discriminate|]. inversion H; subst y; clear H.
  assert (Hr : (0 < d_hi d - d_lo d)%Q). { assert (~ (d_hi d - d_lo d == 0)%Q) by (intros Z; apply Qeq_bool_iff in Z; congruence). destruct (Qlt_le_dec 0 (d_hi d - d_lo d)); auto. exfalso. apply H. lra. }
  set (r := (d_hi d - d_lo d)%Q) in *.
  assert (Key : forall dist, (0 <= dist)%Q -> (dist <= r)%Q -> (dist <= x - d_lo d)%Q -> (dist <= d_hi d - x)%Q ->
     let t := (1 - dist / r)%Q in (d_lo d <= x + ga_delta rt t u * r <= d_hi d)%Q).
  { intros dist D0 Dr Dl Dh t. assert (Q0 : (0 <= dist / r)%Q) by (apply Qle_shift_div_l; lra). assert (Q1 : (dist / r <= 1)%Q) by (apply Qle_shift_div_r; lra).
    assert (Qd : (dist / r * r == dist)%Q) by (field; lra). assert (T : (0 <= t <= 1)%Q) by (unfold t; lra). pose proof (pow16 t T) as (P0 & P1).
    unfold ga_delta. destruct (Qle_bool u (1#2)) eqn:Eu; qprop.
    - assert (K1 : (0 <= 2 * u * (1 - t ^ 16))%Q) by (apply Qmult_le_0_compat; lra). assert (K2 : (0 <= (1 - 2 * u) * (1 - t ^ 16))%Q) by (apply Qmult_le_0_compat; lra).
      destruct (R t (2 * u + (1 - 2 * u) * t ^ 16)%Q) as (R1 & R2); [lra| | |]; [set (p := (t ^ 16)%Q) in *; clearbody p; lra..|].
      set (v := rt _) in *. clearbody v. assert (A1 : (0 <= (v - t) * r)%Q) by (apply Qmult_le_0_compat; lra). assert (A2 : (0 <= (1 - v) * r)%Q) by (apply Qmult_le_0_compat; lra).
      assert (A3 : ((v - t) * r == (v - 1) * r + dist)%Q) by (unfold t; rewrite <- Qd at 2; ring). rewrite A3 in A1.
      assert (A4 : ((1 - v) * r == - ((v - 1) * r))%Q) by ring. rewrite A4 in A2. set (w := ((v - 1) * r)%Q) in *. clearbody w. split; lra.
    - assert (K1 : (0 <= 2 * (1 - u) * (1 - t ^ 16))%Q) by (apply Qmult_le_0_compat; lra). assert (K2 : (0 <= (2 * u - 1) * (1 - t ^ 16))%Q) by (apply Qmult_le_0_compat; lra).
      destruct (R t (2 * (1 - u) + (2 * u - 1) * t ^ 16)%Q) as (R1 & R2); [lra| | |]; [set (p := (t ^ 16)%Q) in *; clearbody p; lra..|].
      set (v := rt _) in *. clearbody v. assert (A1 : (0 <= (v - t) * r)%Q) by (apply Qmult_le_0_compat; lra). assert (A2 : (0 <= (1 - v) * r)%Q) by (apply Qmult_le_0_compat; lra).
      assert (A3 : ((v - t) * r == dist - (1 - v) * r)%Q) by (unfold t; rewrite <- Qd at 2; ring). rewrite A3 in A1.
      set (w := ((1 - v) * r)%Q) in *. clearbody w. split; lra. }
  destruct (Qltb (x - d_lo d) (d_hi d - x)) eqn:El; qprop; apply Key; unfold r in *; lra.
Qed.
Lemma mut1_total rt d u x : (d_lo d < d_hi d)%Q -> exists y, ga_mut1 rt d u x = Some y.
Proof. intros H. unfold ga_mut1. cbv zeta. destruct (Qeq_bool _ 0) eqn:E; eauto. apply Qeq_bool_iff in E. lra. Qed.

Lemma coords_inside f ds : (forall j d x y, (d_lo d <= x <= d_hi d)%Q -> f j d x = Some y -> (d_lo d <= y <= d_hi d)%Q) ->
  forall j x y, inside (dim_bounds ds) x -> coords f j ds x = Some y -> inside (dim_bounds ds) y.
Proof.
  intros Hf. unfold inside, dim_bounds. induction ds as [|d ds IH]; intros j x y H E; simpl in *.
  - inversion E. constructor.
  - inversion H; subst. apply bind_Some in E. destruct E as (b & Eb & E). apply bind_Some in E. destruct E as (r & Er & E). inversion E; subst.
    constructor; [eapply Hf; eauto|]. eapply IH; eauto.
Qed.

Lemma mutate_ok rt ds dr npop pop pop' : root16 rt -> (forall i j, 0 <= gm_u dr i j <= 1)%Q -> Forall (inside (dim_bounds ds)) pop ->
  gens (ga_mutate rt ds dr) 0 npop pop = Some pop' ->
  length pop' = length pop + npop /\ Forall (inside (dim_bounds ds)) pop' /\ incl pop pop'.
Proof.
  intros R U F H. apply (gens_nat _ (fun k s => length s = length pop + k /\ Forall (inside (dim_bounds ds)) s /\ incl pop s)) in H; [exact H| |].
  - intros k s s' (A & B & C) E. unfold ga_mutate in E. apply bind_Some in E. destruct E as (x & Ex & E). apply bind_Some in E. destruct E as (x' & Ex' & E).
    inversion E; subst s'; clear E. assert (Ix : inside (dim_bounds ds) x) by (rewrite Forall_forall in B; apply B; eapply nth_error_In; eauto).
    split; [rewrite length_set_nth, app_length; simpl; lia|]. split.
    + apply Forall_set_nth; [apply Forall_app; split; auto|]. eapply coords_inside; [|exact Ix|exact Ex'].
      intros j d a b Ha. cbv beta. destruct (Qltb _ _); [apply mut1_ok; auto|]. intros Q1. inversion Q1; subst; auto.
    + intros z Hz. apply C in Hz. apply In_nth_error in Hz. destruct Hz as (i & Ei). destruct (Nat.eq_dec i k) as [->|Ne].
      * rewrite Ex in Ei. inversion Ei; subst z. apply (nth_error_In _ (length s)). assert (k < length s) by (apply nth_error_Some; congruence).
        rewrite nth_error_set_nth_neq by lia. rewrite nth_error_app2, Nat.sub_diag by lia. auto.
      * apply (nth_error_In _ i). rewrite nth_error_set_nth_neq by auto. rewrite nth_error_app1; auto. apply nth_error_Some; congruence.
  - split; [lia|]. split; auto. apply incl_refl.
Qed.
Lemma mutate_total rt ds dr npop pop : Forall (fun d => (d_lo d < d_hi d)%Q) ds -> npop <= length pop -> Forall (fun r => length r = length ds) pop ->
  exists pop', gens (ga_mutate rt ds dr) 0 npop pop = Some pop'.
Proof.
  intros Fd L F. destruct (gens_nat_total (ga_mutate rt ds dr) (fun _ s => npop <= length s /\ Forall (fun r => length r = length ds) s) npop 0 pop) as (s & -> & _); eauto.
  intros k s Hk (A & B). unfold ga_mutate. destruct (nth_len s k) as (x & Ex); [lia|]. rewrite Ex. cbn [bind].
  assert (Lx : length x = length ds) by (rewrite Forall_forall in B; apply B; eapply nth_error_In; eauto).
  match goal with |- context [coords ?f 0 ds x] => destruct (coords_total f ds 0 x Lx) as (y & -> & Ly) end.
  { intros i d a Hi. cbn [Nat.add]. destruct (Qltb _ _); eauto. apply mut1_total. rewrite Forall_forall in Fd. apply Fd. eapply nth_error_In; eauto. }
  cbn [bind]. eexists. split; eauto. rewrite length_set_nth, app_length. split; [lia|]. apply Forall_set_nth; auto. apply Forall_app; auto.
Qed.

(* ---------- selection ---------- *)
Lemma sel_insert_perm a l : Permutation (sel_insert a l) (a :: l).
Proof. induction l as [|b l IH]; cbn [sel_insert]; auto. destruct (lex_leb _ _); auto. eapply perm_trans; [apply perm_skip; exact IH|apply perm_swap]. Qed.
Lemma sel_sort_perm l : Permutation (sel_sort l) l.
Proof. induction l as [|a l IH]; cbn [sel_sort]; auto. eapply perm_trans; [apply sel_insert_perm|]. apply perm_skip. auto. Qed.

Notation score_le := (fun a b : list Q * Q => (snd a <= snd b)%Q).
Lemma lex_score a b : if lex_leb (sel_key a) (sel_key b) then (snd a <= snd b)%Q else (snd b <= snd a)%Q.
Proof. unfold sel_key. cbn [lex_leb]. destruct (Qltb (snd a) (snd b)) eqn:E1; qprop; [lra|]. destruct (Qltb (snd b) (snd a)) eqn:E2; qprop; [lra|]. destruct (lex_leb _ _); lra. Qed.
Lemma sel_insert_sorted a l : StronglySorted score_le l -> StronglySorted score_le (sel_insert a l).
Proof.
  induction 1 as [|b l Hs IH Hb]; cbn [sel_insert]; [constructor; auto; constructor|].
  pose proof (lex_score a b) as K. destruct (lex_leb _ _).
  - constructor; [constructor; auto|]. constructor; auto. eapply Forall_impl; [|exact Hb]. intros c Hc. simpl in *. lra.
  - constructor; auto. eapply Permutation_Forall; [symmetry; apply sel_insert_perm|]. constructor; auto.
Qed.
Lemma sel_sort_sorted l : StronglySorted score_le (sel_sort l).
Proof. induction l; cbn [sel_sort]; [constructor|]. apply sel_insert_sorted. auto. Qed.
Lemma sorted_pairs l : StronglySorted score_le l -> forall i j a b, i < j -> nth_error l i = Some a -> nth_error l j = Some b -> (snd a <= snd b)%Q.
Proof.
  induction 1 as [|c l Hs IH Hc]; intros [|i] [|j] a b L Ha Hb; simpl in *; try discriminate; try lia.
  - inversion Ha; subst. rewrite Forall_forall in Hc. apply Hc. eapply nth_error_In; eauto.
  - eapply (IH i j); eauto. lia.
Qed.

Lemma selection_ok score n cands : keeps_best score n cands (map fst (firstn n (sel_sort (map (fun x => (x, score x)) cands)))).
Proof.
  set (sc := map (fun x => (x, score x)) cands). pose proof (sel_sort_perm sc) as P. pose proof (sel_sort_sorted sc) as SS. set (l := sel_sort sc) in *.
  assert (Sc : forall p, In p l -> snd p = score (fst p)). { intros p Hp. apply (Permutation_in _ P) in Hp. apply in_map_iff in Hp. destruct Hp as (x & <- & _). auto. }
  assert (Ll : length l = length cands) by (rewrite (Permutation_length P); unfold sc; apply map_length).
  unfold keeps_best. rewrite map_length, firstn_length, Ll. split; auto. split.
  - exists (map fst (skipn n l)). rewrite <- map_app, firstn_skipn. split.
    + apply Permutation_sym. eapply perm_trans; [apply Permutation_map; exact P|]. unfold sc. rewrite map_map. simpl. rewrite map_id. auto.
    + intros x z Hx Hz. apply in_map_iff in Hx. destruct Hx as (p & <- & Hp). apply in_map_iff in Hz. destruct Hz as (q & <- & Hq).
      apply in_firstn_iff in Hp. destruct Hp as (i & Hi & Ei). apply In_nth_error in Hq. destruct Hq as (j & Ej). rewrite nth_error_skip in Ej.
      rewrite <- (Sc p), <- (Sc q) by (eapply nth_error_In; eauto). eapply (sorted_pairs l SS i (n + j)); eauto. lia.
  - intros i j x z L Ex Ez. rewrite nth_error_map in Ex, Ez.
    destruct (nth_error (firstn n l) i) as [p|] eqn:Ep; [|discriminate]. destruct (nth_error (firstn n l) j) as [q|] eqn:Eq; [|discriminate]. simpl in Ex, Ez.
    inversion Ex; inversion Ez; subst x z; clear Ex Ez.
    assert (T : forall k r, nth_error (firstn n l) k = Some r -> nth_error l k = Some r).
    { intros k r H. assert (k < length (firstn n l)) by (apply nth_error_Some; congruence). rewrite <- (firstn_skipn n l). rewrite nth_error_app1; auto. }
    apply T in Ep, Eq. rewrite <- (Sc p), <- (Sc q) by (eapply nth_error_In; eauto). eapply (sorted_pairs l SS i j); eauto.
Qed.
