(** Proofs about tabu search. *)
From Coq Require Import List Arith ZArith QArith Bool Lia Lqa Permutation.
From Verif Require Import Base BaseFacts Space_Model Space_Spec Space_Facts Opt_Model Opt_Spec Opt_Facts Opt_Facts2
  Pop_Model Pop_Spec Pop_Proofs Swarm_Model Swarm_Proofs HHO_Proofs TS_Model TS_Spec.
Import ListNotations.
Open Scope nat_scope.

Lemma made_snoc tr s : made (tr ++ [s]) = made tr ++ match s with Some s => [s] | None => [] end.
Proof. unfold made. rewrite flat_map_app. simpl. rewrite app_nil_r. reflexivity. Qed.
Lemma stood_snoc x0 tr s : stood x0 (tr ++ [s]) = stood x0 tr ++ match s with Some s => [ts_to s] | None => [] end.
Proof. unfold stood. rewrite made_snoc, map_app. destruct s; reflexivity. Qed.

(** ext order. *)
Lemma ext_leb_total a b : ext_leb a b = false -> ext_leb b a = true.
Proof. destruct a, b; simpl; auto; try discriminate. intros H. apply Qle_bool_iff. apply Qnot_lt_le. intros L. apply Qlt_le_weak in L. apply Qle_bool_iff in L. congruence. Qed.
Lemma ext_leb_refl a : ext_leb a a = true.
Proof. destruct a; simpl; auto. apply Qle_bool_iff. lra. Qed.
Lemma ext_leb_trans a b c : ext_leb a b = true -> ext_leb b c = true -> ext_leb a c = true.
Proof. destruct a, b, c; simpl; auto; try discriminate. rewrite !Qle_bool_iff. lra. Qed.

Lemma ext_argmin_aux_spec l : forall i bi bv all, 
  nth_error all bi = Some bv -> (forall j, nth_error all (i + j) = nth_error l j) -> bi < i ->
  (forall j x, j < i -> nth_error all j = Some x -> ext_leb bv x = true) ->
  exists v, nth_error all (ext_argmin_aux i bi bv l) = Some v /\ forall j x, nth_error all j = Some x -> ext_leb v x = true.
Proof.
  induction l as [|x l IH]; intros i bi bv all Hb Hl Hi Hm; cbn [ext_argmin_aux].
  - exists bv. split; auto. intros j x Hx. destruct (Nat.lt_ge_cases j i); eauto.
    specialize (Hl (j - i)). replace (i + (j - i)) with j in Hl by lia. rewrite Hl in Hx. destruct (j - i); discriminate.
  - assert (Hx : nth_error all i = Some x) by (specialize (Hl 0); rewrite Nat.add_0_r in Hl; auto).
    assert (Hl' : forall j, nth_error all (S i + j) = nth_error l j) by (intros j; specialize (Hl (S j)); rewrite Nat.add_succ_r in Hl; auto).
    unfold ext_ltb. destruct (ext_leb bv x) eqn:E; cbn [negb]; apply IH; auto; try lia.
    + intros j y Hj Hy. destruct (Nat.eq_dec j i) as [->|]; [congruence|]. apply (Hm j); auto. lia.
    + intros j y Hj Hy. destruct (Nat.eq_dec j i) as [->|]; [rewrite Hx in Hy; inversion Hy; apply ext_leb_refl|].
      apply ext_leb_trans with bv; [apply ext_leb_total; auto|]. apply (Hm j); auto. lia.
Qed.

Lemma ext_argmin_spec l i : ext_argmin l = Some i -> exists v, nth_error l i = Some v /\ forall j x, nth_error l j = Some x -> ext_leb v x = true.
Proof.
  destruct l as [|x l]; [discriminate|]. intros H. inversion H; subst; clear H. apply (ext_argmin_aux_spec l 1 0 x (x :: l)); auto.
  intros [|j] y Hj Hy; [|lia]. inversion Hy; apply ext_leb_refl.
Qed.

(** What the loop does to the entries. *)
Definition shrunk (iter : nat) (bf : Q) (e e' : tent) : Prop :=
  te_move e' = te_move e /\ te_time e' = te_time e /\ te_mv e' = te_mv e /\ te_freq e' = te_freq e /\
  (te_pen e' = te_pen e \/ (te_pen e' = PInf /\ (bf <= te_mv e)%Q)).

Lemma shrunk_refl iter bf es : Forall2 (shrunk iter bf) es es.
Proof. induction es; constructor; auto. unfold shrunk. tauto. Qed.

Lemma Forall2_set_nth {A B} (R : A -> B -> Prop) l l' i y : Forall2 R l l' -> (forall x, nth_error l i = Some x -> R x y) -> Forall2 R l (set_nth l' i y).
Proof. intros H. revert i. induction H; intros [|i] Hy; simpl; constructor; auto. Qed.

Lemma F2_nth_l {A B} (R : A -> B -> Prop) l l' i a : Forall2 R l l' -> nth_error l i = Some a -> exists b, nth_error l' i = Some b /\ R a b.
Proof. intros H. revert i. induction H; intros [|i]; simpl; intros E; try discriminate; eauto. inversion E; subst; eauto. Qed.
Lemma F2_nth_r {A B} (R : A -> B -> Prop) l l' i b : Forall2 R l l' -> nth_error l' i = Some b -> exists a, nth_error l i = Some a /\ R a b.
Proof. intros H. revert i. induction H; intros [|i]; simpl; intros E; try discriminate; eauto. inversion E; subst; eauto. Qed.

Lemma choose_spec fuel iter bf es0 : forall es es1 ch, Forall2 (shrunk iter bf) es0 es -> ts_choose fuel iter bf es = Some (es1, ch) ->
  Forall2 (shrunk iter bf) es0 es1 /\
  match ch with
  | Some (i, asp) => exists e, nth_error es0 i = Some e /\ (if asp then iter <= te_time e /\ (te_mv e < bf)%Q else te_time e < iter) /\
      forall j e', nth_error es0 j = Some e' -> ext_leb (te_pen e) (te_pen e') = true \/ (bf <= te_mv e')%Q
  | None => forall j e', nth_error es0 j = Some e' -> ext_ltb limit (te_pen e') = true \/ (bf <= te_mv e')%Q
  end.
Proof.
  induction fuel as [|fuel IH]; intros es es1 ch R H; [discriminate|]. cbn [ts_choose] in H.
  apply bind_Some in H. destruct H as (i & Ei & H). apply bind_Some in H. destruct H as (e & Ee & H).
  apply ext_argmin_spec in Ei. destruct Ei as (v & Ev & Hmin). rewrite nth_error_map, Ee in Ev. inversion Ev; subst v; clear Ev.
  assert (Hm : forall j e', nth_error es0 j = Some e' -> ext_leb (te_pen e) (te_pen e') = true \/ (bf <= te_mv e')%Q).
  { intros j e' Hj. destruct (F2_nth_l _ _ _ _ _ R Hj) as (e2 & E2 & (S1 & S2 & S3 & S4 & [S5|(S5 & S6)])); auto.
    left. rewrite <- S5. apply Hmin with j. rewrite nth_error_map, E2. reflexivity. }
  destruct (F2_nth_r _ _ _ _ _ R Ee) as (e0 & E0 & (S1 & S2 & S3 & S4 & S5)).
  destruct (ext_ltb limit (te_pen e)) eqn:El.
  - inversion H; subst; clear H. split; auto. intros j e' Hj. destruct (Hm j e' Hj) as [K|K]; auto. left.
    unfold ext_ltb in *. destruct (ext_leb (te_pen e') limit) eqn:E'; auto. rewrite (ext_leb_trans _ _ _ K E') in El. discriminate.
  - assert (P0 : te_pen e0 = te_pen e). { destruct S5 as [S5|(S5 & _)]; auto. rewrite S5 in El. discriminate. }
    destruct (te_time e <? iter) eqn:Et.
    + inversion H; subst; clear H. split; auto. exists e0. apply Nat.ltb_lt in Et. split; auto. split; [lia|]. rewrite P0. auto.
    + apply Nat.ltb_ge in Et. destruct (Qltb (te_mv e) bf) eqn:Eb.
      * inversion H; subst; clear H. split; auto. exists e0. qprop. split; auto. rewrite P0. split; auto. split; [lia|congruence].
      * apply IH in H; auto. apply Forall2_set_nth; auto. intros x Hx. rewrite E0 in Hx. inversion Hx; subst x. qprop.
        unfold shrunk. cbn. rewrite <- S3. repeat split; auto.
Qed.

Definition isfin (e : tent) : bool := match te_pen e with Fin _ => true | PInf => false end.
Definition cnt (es : list tent) : nat := length (filter isfin es).

Lemma cnt_set es : forall i e e', nth_error es i = Some e -> isfin e = true -> isfin e' = false -> S (cnt (set_nth es i e')) = cnt es.
Proof.
  unfold cnt. induction es as [|a es IH]; intros [|i] e e' H F F'; simpl in *; try discriminate.
  - inversion H; subst. rewrite F, F'. reflexivity.
  - destruct (isfin a); simpl; rewrite <- (IH i e e'); auto.
Qed.

Lemma choose_total fuel iter bf : forall es, es <> [] -> cnt es < fuel -> exists r, ts_choose fuel iter bf es = Some r.
Proof.
  induction fuel as [|fuel IH]; intros es Hne Hc; [lia|]. cbn [ts_choose].
  destruct (ext_argmin (map te_pen es)) as [i|] eqn:Ei. 2:{ destruct es; [congruence|discriminate]. }
  cbn [bind]. apply ext_argmin_spec in Ei. destruct Ei as (v & Ev & _). rewrite nth_error_map in Ev.
  destruct (nth_error es i) as [e|] eqn:Ee; [|discriminate]. cbn [bind].
  destruct (ext_ltb limit (te_pen e)) eqn:El; eauto. destruct (te_time e <? iter); eauto. destruct (Qltb (te_mv e) bf); eauto.
  apply IH.
  - intros Z. apply (f_equal (@length _)) in Z. rewrite length_set_nth in Z. destruct es; [congruence|discriminate].
  - assert (isfin e = true) by (unfold isfin; destruct (te_pen e); auto; discriminate).
    pose proof (cnt_set es i e (Ent (te_move e) (te_time e) (te_mv e) (te_freq e) PInf) Ee H eq_refl). lia.
Qed.

(** Exchanging two cells. *)
Lemma exchange_spec {A} (l : list A) i j l' : exchange l i j = Some l' -> exists a b, nth_error l i = Some a /\ nth_error l j = Some b /\
  length l' = length l /\ nth_error l' i = Some b /\ nth_error l' j = Some a /\ (forall k, k <> i -> k <> j -> nth_error l' k = nth_error l k) /\ Permutation l l'.
Proof.
  intros H. unfold exchange in H. apply bind_Some in H. destruct H as (a & Ea & H). apply bind_Some in H. destruct H as (b & Eb & H).
  inversion H; subst l'; clear H. exists a, b. split; auto. split; auto. split; [rewrite !length_set_nth; auto|].
  assert (Li : i < length l) by (apply nth_error_Some; congruence). assert (Lj : j < length l) by (apply nth_error_Some; congruence).
  split; [|split; [|split]].
  - destruct (Nat.eq_dec i j) as [->|N]; [|rewrite nth_error_set_nth_neq by auto; apply nth_error_set_nth_eq; auto].
    rewrite nth_error_set_nth_eq by (rewrite length_set_nth; auto). congruence.
  - apply nth_error_set_nth_eq. rewrite length_set_nth. auto.
  - intros k K1 K2. rewrite !nth_error_set_nth_neq by auto. auto.
  - clear - Ea Eb. revert i j Ea Eb. 
    assert (G : forall l i (a b : A), nth_error l i = Some a -> Permutation (b :: l) (a :: set_nth l i b)).
    { clear. induction l as [|x l IH]; intros [|i] a b H; simpl in *; try discriminate.
      - inversion H; subst. apply perm_swap.
      - rewrite perm_swap. rewrite (IH i a b H). apply perm_swap. }
    intros i j Ea Eb. destruct (Nat.eq_dec i j) as [->|N].
    + assert (a = b) by congruence. subst b. transitivity (set_nth l j a); apply Permutation_cons_inv with a; apply G; auto.
      apply nth_error_set_nth_eq. apply nth_error_Some. congruence.
    + pose proof (G l i a b Ea) as P1.
      assert (Eb' : nth_error (set_nth l i b) j = Some b) by (rewrite nth_error_set_nth_neq by auto; auto).
      pose proof (G (set_nth l i b) j b a Eb') as P2. apply Permutation_cons_inv with b. rewrite P1. exact P2.
Qed.

Lemma index_of_spec v l : forall i, index_of v l = Some i -> exists q, nth_error l i = Some q /\ (q == v)%Q.
Proof.
  induction l as [|x l IH]; intros i H; simpl in H; [discriminate|]. destruct (Qeq_bool x v) eqn:E.
  - inversion H; subst. exists x. split; auto. apply Qeq_bool_iff; auto.
  - destruct (index_of v l) as [j|]; [|discriminate]. inversion H; subst. simpl. auto.
Qed.
Lemma index_of_total v l q : In q l -> (q == v)%Q -> exists i, index_of v l = Some i.
Proof.
  induction l as [|x l IH]; intros H E; [inversion H|]. simpl. destruct (Qeq_bool x v) eqn:Ex; eauto.
  destruct H as [->|H]; [apply Qeq_bool_iff in E; congruence|]. destruct (IH H E) as (i & ->). simpl. eauto.
Qed.

Section P.
Context (m : mode) (fit : list Q -> Q) (ds : list dimn) (W : wf_dims ds) (sm : tmode) (w : Q) (tenure : nat).
Local Notation dim := (length ds).
Local Notation sc := (pt_score m fit ds).

Lemma update_move u k x mv c : ts_update ds u k x mv = Some c -> one_move mv x c /\ length c = length x.
Proof.
  destruct mv as [a b|i]; cbn [ts_update]; intros H.
  - apply bind_Some in H. destruct H as (i & Ei & H). apply bind_Some in H. destruct H as (j & Ej & H).
    apply index_of_spec in Ei, Ej. destruct Ei as (p & Ep & Qp), Ej as (q & Eq & Qq).
    apply exchange_spec in H. destruct H as (p' & q' & E1 & E2 & L & K1 & K2 & K3 & _). 
    rewrite Ep in E1. rewrite Eq in E2. inversion E1; inversion E2; subst p' q'.
    split; auto. cbn. exists i, j, p, q. repeat split; auto.
  - apply bind_Some in H. destruct H as (d & _ & H). apply bind_Some in H. destruct H as (q & Eq & H). inversion H; subst c.
    assert (i < length x) by (apply nth_error_Some; congruence). rewrite length_set_nth. split; auto. cbn. rewrite length_set_nth. split; auto. split; auto. intros k' Hk. apply nth_error_set_nth_neq; auto.
Qed.

(** Scanning the neighbourhood. *)
Definition scanned (x : list Q) (e : tent) (ec : tent * list Q) : Prop :=
  te_move (fst ec) = te_move e /\ te_time (fst ec) = te_time e /\ te_freq (fst ec) = te_freq e /\
  te_mv (fst ec) = sc (snd ec) /\ te_pen (fst ec) = Fin (te_mv (fst ec) + qnat (te_freq e) * w)%Q /\
  one_move (te_move e) x (snd ec) /\ length (snd ec) = length x.

Lemma scan_spec du dk x es ec : ts_scan m fit ds w du dk x es = Some ec -> Forall2 (scanned x) es ec.
Proof.
  intros H. unfold ts_scan in H. eapply traverse_Forall2; [|exact H]. cbv beta zeta. intros k e p _ Hp.
  apply bind_Some in Hp. destruct Hp as (c & Ec & Hp). inversion Hp; subst p. apply update_move in Ec. unfold scanned. cbn. repeat split; tauto.
Qed.

Context (x0 : list Q) (ngen : nat).
Local Notation Small := (small_values m fit ds w ngen).
Definition beats (a b : Q) : Prop := (a < b)%Q.

Definition ts_inv (k : nat) (st : ts_state) : Prop :=
  length (tt_pos st) = dim /\ map te_move (tt_es st) = map te_move (ts_structure sm dim) /\
  tt_iter st = S (length (made (tt_trail st))) /\ nth_error (stood x0 (tt_trail st)) (length (made (tt_trail st))) = Some (tt_pos st) /\
  length (tt_trail st) = k /\ length (tt_local st) = k /\ length (tt_global st) = k /\
  Forall (fun e => te_freq e <= k) (tt_es st) /\
  (exists z, In z (tt_log st) /\ (snd (tt_best st) == as_min m (fit z))%Q) /\
  (forall z, In z (stood x0 (tt_trail st)) -> In (pt_arg ds z) (tt_log st) /\ (snd (tt_best st) <= sc z)%Q) /\
  (Small -> In (fst (tt_best st)) (stood x0 (tt_trail st)) /\ (snd (tt_best st) == sc (fst (tt_best st)))%Q) /\
  (Small -> (w == 0)%Q -> forall z, In z (tt_log st) -> (snd (tt_best st) <= as_min m (fit z))%Q) /\
  (forall j e s stp, nth_error (tt_es st) j = Some e -> nth_error (made (tt_trail st)) s = Some stp -> ts_i stp = j -> ts_asp stp = false -> s + 1 + tenure <= te_time e) /\
  (forall t stp, nth_error (made (tt_trail st)) t = Some stp ->
     (if ts_asp stp then forall z, In z (x0 :: map ts_to (firstn t (made (tt_trail st)))) -> (sc (ts_to stp) < sc z)%Q
      else forall s stq, s < t -> nth_error (made (tt_trail st)) s = Some stq -> ts_i stq = ts_i stp -> ts_asp stq = false -> s + tenure < t) /\
     exists x e, nth_error (stood x0 (tt_trail st)) t = Some x /\ nth_error (ts_structure sm dim) (ts_i stp) = Some e /\ one_move (te_move e) x (ts_to stp)) /\
  never_worse m (tt_global st) /\ (k <> 0 -> nth_error (tt_global st) (k - 1) = Some (as_min m (snd (tt_best st)))) /\
  (Small -> forall j v, nth_error (tt_global st) j = Some v -> exists x, best_of m (fun z => fit (pt_arg ds z)) (stood x0 (firstn (S j) (tt_trail st))) x v) /\
  (forall j s v, nth_error (tt_trail st) j = Some (Some s) -> nth_error (tt_local st) j = Some v -> (v == fit (pt_arg ds (ts_to s)))%Q).

Lemma sc_arg z : sc z = as_min m (fit (pt_arg ds z)). Proof. reflexivity. Qed.

Lemma never_snoc h b y : never_worse m h -> (length h <> 0 -> nth_error h (length h - 1) = Some (as_min m b)) -> (y <= b)%Q -> never_worse m (h ++ [as_min m y]).
Proof.
  intros H1 H2 H3. apply never_worse_snoc; auto. intros v Hv. apply In_nth_error in Hv. destruct Hv as (i & Hi).
  assert (i < length h) by (apply nth_error_Some; congruence).
  assert (A : as_good m (as_min m b) v) by (apply (H1 i (length h - 1)); auto; [lia|apply H2; lia]).
  clear - A H3. destruct m; simpl in *; lra.
Qed.

(** What a generation leaves unchanged whatever move it makes. *)
Lemma best_stood tr bx b : (forall z, In z (stood x0 tr) -> (b <= sc z)%Q) -> In bx (stood x0 tr) -> (b == sc bx)%Q ->
  best_of m (fun z => fit (pt_arg ds z)) (stood x0 tr) bx (as_min m b).
Proof. intros H1 H2 H3. apply min_of_best. split; auto. Qed.

Lemma moves_shrunk iter bf es es1 : Forall2 (shrunk iter bf) es es1 -> map te_move es1 = map te_move es.
Proof. induction 1; simpl; f_equal; auto. apply H. Qed.
Lemma map_set_nth {A B} (f : A -> B) l : forall i x y, nth_error l i = Some x -> f y = f x -> map f (set_nth l i y) = map f l.
Proof. induction l as [|a l IH]; intros [|i] x y H E; simpl in *; try discriminate; [inversion H; subst; congruence|]. f_equal. eauto. Qed.

Lemma nth_snoc_cases {A} (l : list A) a i x : nth_error (l ++ [a]) i = Some x -> (i < length l /\ nth_error l i = Some x) \/ (i = length l /\ x = a).
Proof.
  intros H. destruct (Nat.lt_ge_cases i (length l)) as [L|L]; [rewrite nth_error_app1 in H by auto; auto|].
  rewrite nth_error_app2 in H by auto. assert (i - length l = 0) by (destruct (i - length l) as [|[|]]; simpl in H; [auto|discriminate|discriminate]).
  right. split; [lia|]. rewrite H0 in H. simpl in H. congruence.
Qed.

Lemma ts_step du dk k st st' : k < ngen -> ts_inv k st -> ts_gen m fit ds w tenure du dk k st = Some st' -> ts_inv (S k) st'.
Proof.
  intros Hk (A1 & A2 & A3 & A4 & A5 & A6 & A7 & A8 & A9 & A10 & A11 & A12 & A13 & A14 & A15 & A16 & A17 & A18) H.
  unfold ts_gen in H. apply bind_Some in H. destruct H as (ec & Es & H). cbv zeta in H.
  apply bind_Some in H. destruct H as (last & El & H). apply bind_Some in H. destruct H as ([es1 ch] & Ec & H).
  apply scan_spec in Es. rename Es into RS.
  apply (choose_spec _ _ _ (map fst ec)) in Ec; [|apply shrunk_refl]. destruct Ec as (RC & Ch).
  set (bf := snd (tt_best st)) in *.
  assert (Cand : forall j p, nth_error ec j = Some p -> te_mv (fst p) = sc (snd p) /\ length (snd p) = dim /\
     exists e, nth_error (tt_es st) j = Some e /\ scanned (tt_pos st) e p).
  { intros j p Hp. destruct (F2_nth_r _ _ _ _ _ RS Hp) as (e & Ee & Hs). pose proof Hs as (_ & _ & _ & S4 & _ & _ & S6). split; auto. split; [lia|eauto]. }
  assert (Fst : forall j e, nth_error (map fst ec) j = Some e -> exists p, nth_error ec j = Some p /\ e = fst p).
  { intros j e He. rewrite nth_error_map in He. destruct (nth_error ec j) as [p|]; [|discriminate]. exists p. split; auto. simpl in He. congruence. }
  assert (Fin' : Small -> forall j p, nth_error ec j = Some p -> ext_ltb limit (te_pen (fst p)) = false).
  { intros Sm j p Hp. destruct (Cand j p Hp) as (C1 & C2 & e & Ee & (_ & _ & _ & _ & S5 & _)). rewrite S5. unfold ext_ltb, limit, ext_leb. rewrite C1.
    apply negb_false_iff. apply Qle_bool_iff. apply Sm; [apply (clip_inside ds); auto|].
    rewrite Forall_forall in A8. specialize (A8 e (nth_error_In _ _ Ee)). lia. }
  assert (L1 : length es1 = length ec). { apply Forall2_length in RC. rewrite map_length in RC. auto. }
  assert (L0 : length (tt_es st) = length ec) by (eapply Forall2_length; eauto).
  assert (Mv : map te_move es1 = map te_move (tt_es st)).
  { rewrite (moves_shrunk _ _ _ _ RC). clear - RS. induction RS; simpl; f_equal; auto. apply H. }
  assert (E1 : forall j e, nth_error es1 j = Some e -> exists e0 p, nth_error (tt_es st) j = Some e0 /\ nth_error ec j = Some p /\ te_move e = te_move e0 /\
     te_time e = te_time e0 /\ te_freq e = te_freq e0 /\ te_mv e = sc (snd p)).
  { intros j e He. destruct (F2_nth_r _ _ _ _ _ RC He) as (e' & He' & (S1 & S2 & S3 & S4 & _)).
    destruct (Fst j e' He') as (p & Ep & ->). destruct (Cand j p Ep) as (C1 & _ & e0 & E0 & (T1 & T2 & T3 & T4 & _)).
    exists e0, p. repeat split; auto; congruence. }
  assert (LogIn : forall z, In z (tt_log st ++ map (fun p => pt_arg ds (snd p)) ec) -> In z (tt_log st) \/ exists j p, nth_error ec j = Some p /\ z = pt_arg ds (snd p)).
  { intros z Hz. apply in_app_or in Hz. destruct Hz as [Hz|Hz]; auto. apply in_map_iff in Hz. destruct Hz as (p & <- & Hp). apply In_nth_error in Hp. destruct Hp as (j & Hj). right; eauto. }
  destruct ch as [[i asp]|].
  - (* a move is made *)
    destruct Ch as (e' & He' & Hasp & Hmin). destruct (Fst i e' He') as (p & Ep & ->).
    destruct (Cand i p Ep) as (C1 & C2 & e0 & E0 & (T1 & T2 & T3 & T4 & T5 & T6 & T7)).
    cbn [bind] in H. apply bind_Some in H. destruct H as ([[[[[[pos best] es2] iter] f] step] log] & Hm & H).
    apply bind_Some in Hm. destruct Hm as (e & Ee & Hm). rewrite Ep in Hm. cbn [bind] in Hm. cbv zeta in Hm.
    destruct (E1 i e Ee) as (e0' & p' & E0' & Ep' & D1 & D2 & D3 & D4). rewrite E0 in E0'. rewrite Ep in Ep'. inversion E0'; inversion Ep'; subst e0' p'; clear E0' Ep'.
    set (c := snd p) in *.
    assert (Out : pos = c /\ iter = S (tt_iter st) /\ f = sc c /\ step = Some (TStep i asp c) /\
       (if Qltb f (snd best) then (pos, f) else best) = (if Qltb (sc c) bf then (c, sc c) else tt_best st) /\
       (exists extra, log = (tt_log st ++ map (fun p => pt_arg ds (snd p)) ec) ++ extra /\ Forall (fun z => z = pt_arg ds c) extra) /\
       exists e2, es2 = set_nth es1 i e2 /\ te_move e2 = te_move e /\ te_freq e2 = S (te_freq e) /\ te_time e2 = if asp then te_time e else tt_iter st + tenure).
    { destruct asp.
      - inversion Hm; subst; clear Hm. destruct Hasp as (Ht & Hv). repeat split; auto.
        + cbn [snd]. rewrite C1 in Hv. fold c in Hv. destruct (Qltb (sc c) (sc c)) eqn:Eq; qprop; [lra|].
          destruct (Qltb (sc c) bf) eqn:Eq2; qprop; [auto|lra].
        + exists [pt_arg ds c]. split; auto.
        + eexists. split; [reflexivity|]. cbn. auto.
      - inversion Hm; subst; clear Hm. rewrite D4. repeat split; auto.
        + fold bf. destruct (Qltb (sc c) bf) eqn:Eq; cbn [snd]; [destruct (Qltb (sc c) (sc c)) eqn:Eq2; auto|fold bf; rewrite Eq; auto].
        + exists []. rewrite app_nil_r. split; auto.
        + eexists. split; [reflexivity|]. cbn. auto. }
    destruct Out as (-> & -> & -> & -> & Eb & (extra & -> & Fe) & (e2 & -> & F1 & F2 & F3)). rewrite Eb in H. clear Eb Hm.
    set (nb := if Qltb (sc c) bf then (c, sc c) else tt_best st) in *.
    assert (N1 : (snd nb <= bf)%Q /\ (snd nb <= sc c)%Q).
    { unfold nb. destruct (Qltb (sc c) bf) eqn:Eq; qprop; cbn [snd]; fold bf; split; lra. }
    assert (N2 : nb = (c, sc c) \/ (nb = tt_best st)) by (unfold nb; destruct (Qltb (sc c) bf); auto).
    assert (Cin : In (pt_arg ds c) (tt_log st ++ map (fun p => pt_arg ds (snd p)) ec)).
    { apply in_or_app. right. apply in_map_iff. exists p. split; auto. eapply nth_error_In; eauto. }
    assert (LM : length (made (tt_trail st ++ [Some (TStep i asp c)])) = S (length (made (tt_trail st)))) by (rewrite made_snoc, app_length; simpl; lia).
    assert (LS : length (stood x0 (tt_trail st)) = S (length (made (tt_trail st)))) by (unfold stood; simpl; rewrite map_length; auto).
    assert (Z2 : forall z, In z (stood x0 (tt_trail st ++ [Some (TStep i asp c)])) -> In (pt_arg ds z) ((tt_log st ++ map (fun p => pt_arg ds (snd p)) ec) ++ extra) /\ (snd nb <= sc z)%Q).
    { intros z Hz. rewrite stood_snoc in Hz. cbn [ts_to] in Hz. apply in_app_or in Hz. destruct Hz as [Hz|[<-|[]]].
      - destruct (A10 z Hz) as (Z3 & Z4). split; [apply in_or_app; left; apply in_or_app; auto|]. fold bf in Z4. lra.
      - split; [apply in_or_app; auto|]. tauto. }
    assert (Pair : Small -> In (fst nb) (stood x0 (tt_trail st ++ [Some (TStep i asp c)])) /\ (snd nb == sc (fst nb))%Q).
    { intros Sm. rewrite stood_snoc. destruct N2 as [->| ->]; [split; [apply in_or_app; right; simpl; auto|reflexivity]|].
      destruct (A11 Sm) as (Z3 & Z4). split; auto. apply in_or_app; auto. }
    inversion H; subst st'; clear H. unfold ts_inv. cbn [tt_pos tt_best tt_es tt_iter tt_local tt_global tt_trail tt_log].
    assert (A4' : nth_error (stood x0 (tt_trail st ++ [Some (TStep i asp c)])) (S (length (made (tt_trail st)))) = Some c).
    { rewrite stood_snoc, nth_error_app2 by lia. rewrite LS, Nat.sub_diag. reflexivity. }
    split; [auto|]. split; [rewrite (map_set_nth te_move es1 i e e2); auto; congruence|]. split; [lia|].
    split; [rewrite LM; auto|].
    split; [rewrite app_length; simpl; lia|]. split; [rewrite app_length; simpl; lia|]. split; [rewrite app_length; simpl; lia|].
    assert (Fr1 : Forall (fun e => te_freq e <= k) es1).
    { apply Forall_forall. intros x Hx. apply In_nth_error in Hx. destruct Hx as (j & Hj). destruct (E1 j x Hj) as (q & _ & Eq & _ & _ & _ & -> & _).
      rewrite Forall_forall in A8. apply A8. eapply nth_error_In; eauto. }
    split. { apply Forall_set_nth; [eapply Forall_impl; [|exact Fr1]; cbv beta; intros; lia|]. rewrite F2. rewrite Forall_forall in Fr1. specialize (Fr1 e (nth_error_In _ _ Ee)). lia. }
    split. { destruct N2 as [->| ->].
      - exists (pt_arg ds c). split; [apply in_or_app; auto|reflexivity].
      - destruct A9 as (z & Z3 & Z4). exists z. split; auto. apply in_or_app; left; apply in_or_app; auto. }
    split; [exact Z2|]. split; [exact Pair|].
    split. { intros Sm W0 z Hz. apply in_app_or in Hz. destruct Hz as [Hz|Hz].
      2:{ rewrite Forall_forall in Fe. rewrite (Fe z Hz). apply N1. }
      apply LogIn in Hz. destruct Hz as [Hz|(j & q & Eq & ->)].
      - specialize (A12 Sm W0 z Hz). fold bf in A12. lra.
      - destruct (Hmin j (fst q)) as [K|K]; [rewrite nth_error_map, Eq; reflexivity| |].
        + destruct (Cand j q Eq) as (Q1 & _ & e3 & _ & (_ & _ & _ & _ & Q5 & _)). rewrite T5, Q5 in K. simpl in K. apply Qle_bool_iff in K.
          rewrite Q1 in K. rewrite C1 in K. change (as_min m (fit (pt_arg ds (snd q)))) with (sc (snd q)). fold c in K.
          rewrite !W0 in K. destruct N1. lra.
        + destruct (Cand j q Eq) as (Q1 & _). rewrite Q1 in K. unfold bf in *. change (as_min m (fit (pt_arg ds (snd q)))) with (sc (snd q)). lra. }
    (* times *)
    assert (Tm : forall j x q, nth_error (set_nth es1 i e2) j = Some x -> nth_error (tt_es st) j = Some q -> te_time q <= te_time x /\ (j = i -> asp = false -> tt_iter st + tenure <= te_time x)).
    { intros j x q Hx Hq. destruct (Nat.eq_dec j i) as [->|Nj].
      - rewrite nth_error_set_nth_eq in Hx by (apply nth_error_Some; congruence). inversion Hx; subst x. rewrite E0 in Hq. inversion Hq; subst q. rewrite F3.
        destruct asp; [split; [lia|discriminate]|]. split; [|lia]. rewrite T2 in Hasp. lia.
      - rewrite nth_error_set_nth_neq in Hx by auto. destruct (E1 j x Hx) as (q' & _ & Eq' & _ & _ & -> & _). rewrite Hq in Eq'. inversion Eq'. split; [lia|congruence]. }
    split. { intros j x s stp Hx Hs Hi Ha. 
      assert (exists q, nth_error (tt_es st) j = Some q) as (q & Hq).
      { apply nth_len. assert (j < length (set_nth es1 i e2)) by (apply nth_error_Some; congruence). rewrite length_set_nth in *. lia. }
      destruct (Tm j x q Hx Hq) as (T8 & T9). rewrite made_snoc in Hs. apply nth_snoc_cases in Hs. destruct Hs as [(Ls & Hs)|(Ls & ->)].
      - specialize (A13 j q s stp Hq Hs Hi Ha). lia.
      - cbn [ts_i ts_asp] in *. specialize (T9 (eq_sym Hi) Ha). lia. }
    split. { intros t stp Ht. rewrite made_snoc in *. apply nth_snoc_cases in Ht. destruct Ht as [(Lt & Ht)|(Lt & ->)].
      - destruct (A14 t stp Ht) as (B1 & (x & q & B2 & B3 & B4)). split.
        + destruct (ts_asp stp).
          * intros z Hz. apply B1. rewrite firstn_app in Hz. replace (t - length (made (tt_trail st))) with 0 in Hz by lia. simpl in Hz. rewrite app_nil_r in Hz. auto.
          * intros s stq Hs Hq. apply B1; auto. rewrite nth_error_app1 in Hq by lia. auto.
        + exists x, q. split; auto. rewrite stood_snoc, nth_error_app1 by (apply nth_error_Some; congruence). auto.
      - cbn [ts_i ts_asp ts_to]. split.
        + destruct asp.
          * intros z Hz. rewrite Lt, firstn_app, firstn_all, Nat.sub_diag in Hz. simpl in Hz. rewrite app_nil_r in Hz. destruct (A10 z Hz) as (_ & Z4). fold bf in Z4.
            destruct Hasp as (_ & Hv). rewrite C1 in Hv. fold c in Hv. lra.
          * intros s stq Hs Hq Hi Ha. rewrite nth_error_app1 in Hq by lia. specialize (A13 i e0 s stq E0 Hq Hi Ha). rewrite T2 in Hasp. lia.
        + exists (tt_pos st).
          assert (exists q, nth_error (ts_structure sm dim) i = Some q) as (q & Eq).
          { apply nth_len. rewrite <- (map_length te_move (ts_structure sm dim)), <- A2, map_length. apply nth_error_Some. congruence. }
          exists q. rewrite stood_snoc, nth_error_app1 by (rewrite LS; lia). rewrite Lt. split; auto. split; auto.
          replace (te_move q) with (te_move e0); auto.
          assert (Z : nth_error (map te_move (tt_es st)) i = nth_error (map te_move (ts_structure sm dim)) i) by congruence.
          rewrite !nth_error_map, E0, Eq in Z. simpl in Z. congruence. }
    split. { eapply never_snoc with (b := bf); auto; [|tauto]. rewrite A7. auto. }
    split. { intros _. rewrite nth_error_app2 by lia. rewrite A7. simpl. rewrite Nat.sub_0_r, Nat.sub_diag. reflexivity. }
    split. { intros Sm j v Hv. apply nth_snoc_cases in Hv. destruct Hv as [(Lj & Hv)|(Lj & ->)].
      - destruct (A17 Sm j v Hv) as (x & Bx). exists x. rewrite firstn_app. replace (S j - length (tt_trail st)) with 0 by lia. simpl firstn at 2. rewrite app_nil_r. auto.
      - exists (fst nb). rewrite firstn_all2 by (rewrite app_length; simpl; lia). destruct (Pair Sm). apply best_stood; auto. intros z Hz. apply Z2; auto. }
    intros j s v Hs Hv. apply nth_snoc_cases in Hs. destruct Hs as [(Lj & Hs)|(Lj & Hs)].
    + rewrite nth_error_app1 in Hv by lia. eauto.
    + inversion Hs; subst s. rewrite nth_error_app2 in Hv by lia. rewrite Lj, A5, A6, Nat.sub_diag in Hv. simpl in Hv. inversion Hv. cbn [ts_to]. apply as_min_invol.
  - (* no move *)
    cbn [bind] in H. set (f := te_mv last) in *.
    destruct (Fst _ last El) as (p & Ep & El'). destruct (Cand _ p Ep) as (C1 & C2 & _). assert (Ef : f = sc (snd p)) by (unfold f; rewrite El'; auto).
    fold bf in H. set (nb := if Qltb f bf then (tt_pos st, f) else tt_best st) in *.
    assert (N1 : (snd nb <= bf)%Q /\ (snd nb <= f)%Q).
    { unfold nb. destruct (Qltb f bf) eqn:Eq; qprop; cbn [snd]; fold bf; split; lra. }
    assert (Nf : Small -> forall j q, nth_error ec j = Some q -> (bf <= sc (snd q))%Q).
    { intros Sm j q Eq. destruct (Ch j (fst q)) as [K|K]; [rewrite nth_error_map, Eq; reflexivity| |].
      - rewrite (Fin' Sm j q Eq) in K. discriminate.
      - destruct (Cand j q Eq) as (Q1 & _). rewrite <- Q1. auto. }
    assert (Nb : Small -> nb = tt_best st).
    { intros Sm. unfold nb. destruct (Qltb f bf) eqn:Eq; auto. qprop. specialize (Nf Sm _ p Ep). rewrite Ef in Eq. lra. }
    assert (St : forall tr, stood x0 (tr ++ [None]) = stood x0 tr) by (intros; rewrite stood_snoc, app_nil_r; auto).
    assert (Md : made (tt_trail st ++ [None]) = made (tt_trail st)) by (rewrite made_snoc, app_nil_r; auto).
    inversion H; subst st'; clear H. unfold ts_inv. cbn [tt_pos tt_best tt_es tt_iter tt_local tt_global tt_trail tt_log]. rewrite !St, !Md.
    split; [auto|]. split; [congruence|]. split; [auto|]. split; [auto|].
    split; [rewrite app_length; simpl; lia|]. split; [rewrite app_length; simpl; lia|]. split; [rewrite app_length; simpl; lia|].
    split. { apply Forall_forall. intros x Hx. apply In_nth_error in Hx. destruct Hx as (j & Hj). destruct (E1 j x Hj) as (q & _ & Eq & _ & _ & _ & -> & _).
      rewrite Forall_forall in A8. specialize (A8 q (nth_error_In _ _ Eq)). lia. }
    split. { unfold nb. destruct (Qltb f bf).
      - exists (pt_arg ds (snd p)). split; [|cbn [snd]; rewrite Ef; reflexivity]. apply in_or_app. right. apply in_map_iff. exists p. split; auto. eapply nth_error_In; eauto.
      - destruct A9 as (z & Z3 & Z4). exists z. split; auto. apply in_or_app; auto. }
    split. { intros z Hz. destruct (A10 z Hz) as (Z3 & Z4). split; [apply in_or_app; auto|]. fold bf in Z4. lra. }
    split; [intros Sm; rewrite (Nb Sm); auto|].
    split. { intros Sm W0 z Hz. rewrite (Nb Sm). apply LogIn in Hz. destruct Hz as [Hz|(j & q & Eq & ->)]; [apply A12; auto|]. apply (Nf Sm j q Eq). }
    split. { intros j x s stp Hx Hs Hi Ha. destruct (E1 j x Hx) as (q & _ & Eq & _ & _ & -> & _). eauto. }
    split; [exact A14|].
    split. { eapply never_snoc with (b := bf); auto; [|tauto]. rewrite A7. auto. }
    split. { intros _. rewrite nth_error_app2 by lia. rewrite A7. simpl. rewrite Nat.sub_0_r, Nat.sub_diag. reflexivity. }
    split. { intros Sm j v Hv. apply nth_snoc_cases in Hv. destruct Hv as [(Lj & Hv)|(Lj & ->)].
      - destruct (A17 Sm j v Hv) as (x & Bx). exists x. rewrite firstn_app. replace (S j - length (tt_trail st)) with 0 by lia. simpl firstn at 2. rewrite app_nil_r. auto.
      - rewrite (Nb Sm). exists (fst (tt_best st)). rewrite firstn_all2 by (rewrite app_length; simpl; lia). rewrite St. destruct (A11 Sm). apply best_stood; auto. intros z Hz. apply A10; auto. }
    intros j s v Hs Hv. apply nth_snoc_cases in Hs. destruct Hs as [(Lj & Hs)|(Lj & Hs)]; [|discriminate].
    rewrite nth_error_app1 in Hv by lia. eauto.
Qed.

Lemma gens_nat_lt {St} (step : nat -> St -> option St) (I : nat -> St -> Prop) : forall n g s s',
  (forall k s s', g <= k < g + n -> I k s -> step k s = Some s' -> I (S k) s') -> I g s -> gens step g n s = Some s' -> I (g + n) s'.
Proof.
  intros n. induction n as [|n IH]; intros g s s' H Hi Hg; simpl in Hg.
  - inversion Hg; subst. rewrite Nat.add_0_r. auto.
  - apply bind_Some in Hg. destruct Hg as (s1 & E & Hg). rewrite <- Nat.add_succ_comm. eapply (IH (S g)); eauto; [|eapply H; eauto; lia].
    intros k s2 s3 Hk. apply H. lia.
Qed.

Definition ts_s0 : ts_state := TsSt x0 (x0, sc x0) (ts_structure sm dim) 1 [] [] [] [pt_arg ds x0].

Lemma s0_inv : length x0 = dim -> ts_inv 0 ts_s0.
Proof.
  intros L. unfold ts_inv, ts_s0. cbn [tt_pos tt_best tt_es tt_iter tt_local tt_global tt_trail tt_log made flat_map length stood map].
  split; [auto|]. split; [auto|]. split; [auto|]. split; [auto|]. split; [auto|]. split; [auto|]. split; [auto|].
  split. { unfold ts_structure. apply Forall_forall. intros e He. apply in_map_iff in He. destruct He as (mv & <- & _). simpl. auto. }
  split; [exists (pt_arg ds x0); split; [simpl; auto|reflexivity]|].
  split. { intros z [<-|[]]. split; [simpl; auto|]. cbn [snd]. lra. }
  split; [intros _; split; [simpl; auto|reflexivity]|].
  split. { intros _ _ z [<-|[]]. cbn [snd]. rewrite sc_arg. lra. }
  split. { intros j e [|s] stp _ Hs; discriminate. }
  split. { intros [|t] stp Hs; discriminate. }
  split. { intros [|i] j a b _ Ha; discriminate. }
  split; [congruence|]. split; [intros _ [|j] v Hv; discriminate|]. intros [|j] s v Hv; discriminate.
Qed.

Lemma evolute_inv du dk r : ts_evolute m fit ds sm w tenure ngen du dk x0 = Some r -> ngen <> 0 /\ length x0 = dim /\
  exists st, gens (ts_gen m fit ds w tenure du dk) 0 ngen ts_s0 = Some st /\ ts_inv ngen st /\
  r = TsRes (fst (tt_best st)) (as_min m (snd (tt_best st))) (tt_local st) (tt_global st) (tt_trail st) (tt_log st).
Proof.
  intros H. unfold ts_evolute in H. destruct (length x0 =? dim) eqn:E; [|discriminate]. cbn [negb] in H. cbv zeta in H. apply Nat.eqb_eq in E.
  apply bind_Some in H. destruct H as (st & Es & H). destruct (ngen =? 0) eqn:E0; [discriminate|]. apply Nat.eqb_neq in E0.
  split; auto. split; auto. exists st. split; auto. split; [|congruence].
  apply (gens_nat_lt _ ts_inv) in Es; auto; [|apply s0_inv; auto].
  intros k s s' Hk. apply ts_step. lia.
Qed.

Lemma ts_value du dk r : ts_evolute m fit ds sm w tenure ngen du dk x0 = Some r ->
  (exists z, In z (tr_log r) /\ (tr_y r == fit z)%Q) /\
  (forall z, In z (stood x0 (tr_trail r)) -> In (pt_arg ds z) (tr_log r) /\ as_good m (tr_y r) (fit (pt_arg ds z))) /\
  length (tr_trail r) = ngen /\ length (tr_hg r) = ngen /\ never_worse m (tr_hg r) /\ nth_error (tr_hg r) (ngen - 1) = Some (tr_y r) /\
  length (tr_hl r) = ngen /\ (forall j s v, nth_error (tr_trail r) j = Some (Some s) -> nth_error (tr_hl r) j = Some v -> (v == fit (pt_arg ds (ts_to s)))%Q).
Proof.
  intros H. apply evolute_inv in H. destruct H as (Hn & L & st & Es & I & ->). cbn [tr_x tr_y tr_hl tr_hg tr_trail tr_log].
  destruct I as (A1 & A2 & A3 & A4 & A5 & A6 & A7 & A8 & A9 & A10 & A11 & A12 & A13 & A14 & A15 & A16 & A17 & A18).
  split. { destruct A9 as (z & Z1 & Z2). exists z. split; auto. clear - Z2. destruct m; simpl in *; lra. }
  split. { intros z Hz. destruct (A10 z Hz) as (Z1 & Z2). split; auto. unfold pt_score in Z2. clear - Z2. destruct m; simpl in *; lra. }
  repeat split; auto.
Qed.

Lemma ts_best_stood du dk r : Small -> ts_evolute m fit ds sm w tenure ngen du dk x0 = Some r ->
  best_of m (fun z => fit (pt_arg ds z)) (stood x0 (tr_trail r)) (tr_x r) (tr_y r) /\
  (forall j v, nth_error (tr_hg r) j = Some v -> exists x, best_of m (fun z => fit (pt_arg ds z)) (stood x0 (firstn (S j) (tr_trail r))) x v) /\
  ((w == 0)%Q -> best_of m fit (tr_log r) (pt_arg ds (tr_x r)) (tr_y r)).
Proof.
  intros Sm H. apply evolute_inv in H. destruct H as (Hn & L & st & Es & I & ->). cbn [tr_x tr_y tr_hl tr_hg tr_trail tr_log].
  destruct I as (A1 & A2 & A3 & A4 & A5 & A6 & A7 & A8 & A9 & A10 & A11 & A12 & A13 & A14 & A15 & A16 & A17 & A18).
  destruct (A11 Sm) as (B1 & B2). split; [apply best_stood; auto; intros z Hz; apply A10; auto|]. split; auto.
  intros W0. apply min_of_best. split; [apply A10; auto|]. split; auto.
Qed.

Lemma ts_tenure du dk r : ts_evolute m fit ds sm w tenure ngen du dk x0 = Some r ->
  forall t stp, nth_error (made (tr_trail r)) t = Some stp ->
  (exists x e, nth_error (stood x0 (tr_trail r)) t = Some x /\ nth_error (ts_structure sm dim) (ts_i stp) = Some e /\ one_move (te_move e) x (ts_to stp)) /\
  (forall s stq, s < t -> t <= s + tenure -> nth_error (made (tr_trail r)) s = Some stq -> ts_i stq = ts_i stp -> ts_asp stq = false ->
     ts_asp stp = true) /\
  (ts_asp stp = true -> forall z, In z (firstn (S t) (stood x0 (tr_trail r))) -> better m (fit (pt_arg ds (ts_to stp))) (fit (pt_arg ds z))).
Proof.
  intros H. apply evolute_inv in H. destruct H as (Hn & L & st & Es & I & ->). cbn [tr_x tr_y tr_hl tr_hg tr_trail tr_log].
  destruct I as (A1 & A2 & A3 & A4 & A5 & A6 & A7 & A8 & A9 & A10 & A11 & A12 & A13 & A14 & A15 & A16 & A17 & A18).
  intros t stp Ht. destruct (A14 t stp Ht) as (B1 & B2). split; auto. split.
  - intros s stq Hs Ht' Hq Hi Ha. destruct (ts_asp stp); auto. specialize (B1 s stq Hs Hq Hi Ha). lia.
  - intros Ha. rewrite Ha in B1. intros z Hz. unfold stood in Hz. cbn [firstn] in Hz. rewrite firstn_map in Hz. specialize (B1 z Hz).
    unfold pt_score in B1. clear - B1. destruct m; simpl in *; lra.
Qed.

(** Invariants of single moves hold of everything the search touches. *)
Lemma ts_keeps (P : list Q -> Prop) du dk r :
  (forall l i x mv c, In mv (map te_move (ts_structure sm dim)) -> P x -> ts_update ds (du l i) (dk l i) x mv = Some c -> P c) -> P x0 ->
  ts_evolute m fit ds sm w tenure ngen du dk x0 = Some r ->
  P (tr_x r) /\ Forall P (stood x0 (tr_trail r)) /\ Forall (fun z => exists c, P c /\ z = pt_arg ds c) (tr_log r).
Proof.
  intros HP P0 H. apply evolute_inv in H. destruct H as (Hn & L & st & Es & I & ->). cbn [tr_x tr_y tr_hl tr_hg tr_trail tr_log]. clear I Hn.
  set (J := fun (k : nat) (st : ts_state) => ts_inv k st /\ P (tt_pos st) /\ P (fst (tt_best st)) /\ Forall P (stood x0 (tt_trail st)) /\ Forall (fun z => exists c, P c /\ z = pt_arg ds c) (tt_log st)).
  apply (gens_nat_lt _ J) in Es; [unfold J in Es; tauto| |].
  2:{ unfold J, ts_s0. split; [apply s0_inv; auto|]. cbn [tt_pos tt_best tt_trail tt_log fst]. split; auto. split; auto. split; [repeat constructor; auto|]. constructor; [exists x0; auto|constructor]. }
  clear Es st. intros k st st' Hk (I & P1 & P2 & P3 & P4) Hg. split; [eapply ts_step; eauto; lia|].
  destruct I as (A1 & A2 & _).
  unfold ts_gen in Hg. apply bind_Some in Hg. destruct Hg as (ec & Ec & H). cbv zeta in H.
  assert (FC : Forall (fun p => P (snd p)) ec).
  { unfold ts_scan in Ec.
    assert (K : Forall2 (fun (_ : tent) p => P (snd p)) (tt_es st) ec).
    { eapply traverse_Forall2; [|exact Ec]. cbv beta zeta. intros i e p He Hp. apply bind_Some in Hp. destruct Hp as (c & Ec' & Hp). inversion Hp; subst p. cbn.
      eapply HP; [|exact P1|exact Ec']. rewrite <- A2. apply in_map; auto. }
    clear - K. induction K; constructor; auto. }
  apply bind_Some in H. destruct H as (last & El & H). apply bind_Some in H. destruct H as ([es1 ch] & _ & H).
  assert (FL : Forall (fun z => exists c, P c /\ z = pt_arg ds c) (tt_log st ++ map (fun p => pt_arg ds (snd p)) ec)).
  { apply Forall_app. split; auto. clear - FC. induction FC; simpl; constructor; eauto. }
  apply bind_Some in H. destruct H as ([[[[[[pos best] es2] iter] f] step] log] & Hm & H). inversion H; subst st'; clear H.
  cbn [tt_pos tt_best tt_trail tt_log].
  assert (K : P pos /\ P (fst best) /\ Forall P (stood x0 (tt_trail st ++ [step])) /\ Forall (fun z => exists c, P c /\ z = pt_arg ds c) log).
  { rewrite stood_snoc. destruct ch as [[i asp]|].
    - apply bind_Some in Hm. destruct Hm as (e & Ee & Hm). apply bind_Some in Hm. destruct Hm as (p & Ep & Hm). cbv zeta in Hm.
      rewrite Forall_forall in FC. specialize (FC p (nth_error_In _ _ Ep)).
      destruct asp; inversion Hm; subst; clear Hm; cbn [ts_to fst]; split; auto.
      + split; auto. split; apply Forall_app; split; auto. constructor; eauto.
      + split; [destruct (Qltb _ _); auto|]. split; auto. apply Forall_app; split; auto.
    - inversion Hm; subst; clear Hm. rewrite app_nil_r. auto. }
  destruct K as (K1 & K2 & K3 & K4). repeat split; auto. destruct (Qltb f (snd best)); auto.
Qed.

Lemma set_feasible x i d v : feasible ds x -> nth_error ds i = Some d -> ((d_lo d <= v)%Q /\ (v <= d_hi d)%Q /\ (d_int d = true -> is_int v)) -> feasible ds (set_nth x i v).
Proof.
  clear W. intros F. revert i. unfold feasible in *. induction F; intros [|i] Hd Hv; simpl in *; try discriminate.
  - inversion Hd; subst. constructor; auto.
  - constructor; auto.
Qed.

Lemma perturb_feasible du dk r : sm = Perturb -> (forall l i, (0 <= du l i)%Q /\ (du l i <= 1)%Q) -> feasible ds x0 ->
  ts_evolute m fit ds sm w tenure ngen du dk x0 = Some r ->
  feasible ds (tr_x r) /\ Forall (feasible ds) (stood x0 (tr_trail r)) /\ Forall (feasible ds) (tr_log r).
Proof.
  intros Esm Hu F H. assert (K : feasible ds (tr_x r) /\ Forall (feasible ds) (stood x0 (tr_trail r)) /\ Forall (fun z => exists c, feasible ds c /\ z = pt_arg ds c) (tr_log r)).
  { eapply (ts_keeps _ du dk r); [|auto|exact H]. intros l i x mv c Hin Fx Hc. rewrite Esm in Hin. unfold ts_structure in Hin. rewrite map_map in Hin. cbn in Hin. rewrite map_id in Hin.
    apply in_map_iff in Hin. destruct Hin as (j & <- & _). cbn [ts_update] in Hc. apply bind_Some in Hc. destruct Hc as (d & Ed & Hc).
    apply bind_Some in Hc. destruct Hc as (q & _ & Hc). inversion Hc; subst c. eapply set_feasible; eauto.
    unfold wf_dims in W. rewrite Forall_forall in W. destruct (W d (nth_error_In _ _ Ed)) as (W1 & W2). apply gen_coord_ok; auto; apply Hu. }
  destruct K as (K1 & K2 & K3). split; auto. split; auto. eapply Forall_impl; [|exact K3]. cbv beta. intros z (c & Fc & ->).
  unfold pt_arg. rewrite <- (map_id (clip_vec _ c)). rewrite map_id. change (bnds ds) with (dim_bounds ds). rewrite clip_id; auto using feasible_inside.
Qed.

Lemma swap_moves mv : In mv (map te_move (ts_structure Swap dim)) -> exists a b, mv = MSwap a b /\ 1 <= a <= dim /\ 1 <= b <= dim.
Proof.
  unfold ts_structure. rewrite map_map. cbn. rewrite map_id. intros H. apply in_map_iff in H. destruct H as ([a b] & <- & H). exists a, b. split; auto.
  assert (G : forall l : list nat, In (a, b) (pairs l) -> In a l /\ In b l).
  { clear. induction l as [|x l IH]; simpl; [tauto|]. intros H. apply in_app_or in H. destruct H as [H|H].
    - apply in_map_iff in H. destruct H as (y & Ey & Hy). inversion Ey; subst. auto.
    - apply IH in H. tauto. }
  apply G in H. destruct H as (H1 & H2). apply in_seq in H1, H2. lia.
Qed.

Lemma swap_permutation du dk r : sm = Swap -> ts_evolute m fit ds sm w tenure ngen du dk x0 = Some r ->
  Permutation x0 (tr_x r) /\ Forall (Permutation x0) (stood x0 (tr_trail r)).
Proof.
  intros Esm H. assert (K : Permutation x0 (tr_x r) /\ Forall (Permutation x0) (stood x0 (tr_trail r)) /\ Forall (fun z => exists c, Permutation x0 c /\ z = pt_arg ds c) (tr_log r)).
  { eapply (ts_keeps _ du dk r); [|auto|exact H]. intros l i x mv c Hin Fx Hc. rewrite Esm in Hin. apply swap_moves in Hin. destruct Hin as (a & b & -> & _). cbn [ts_update] in Hc.
    apply bind_Some in Hc. destruct Hc as (i1 & _ & Hc). apply bind_Some in Hc. destruct Hc as (i2 & _ & Hc).
    apply exchange_spec in Hc. destruct Hc as (_ & _ & _ & _ & _ & _ & _ & _ & Pm). transitivity x; auto. }
  tauto.
Qed.

Lemma uniform_feasible x : uniform_dims ds -> feasible ds x0 -> Permutation x0 x -> feasible ds x.
Proof.
  intros (d & U) F Pm. assert (Lx : length x = dim) by (rewrite <- (Permutation_length Pm); apply feasible_length; auto).
  assert (G : Forall (fun v => (d_lo d <= v)%Q /\ (v <= d_hi d)%Q /\ (d_int d = true -> is_int v)) x).
  { eapply Permutation_Forall; [exact Pm|]. clear - U F. unfold feasible in F. induction F; constructor; inversion U; subst; auto. }
  clear - U G Lx. revert x Lx G. unfold feasible. induction U as [|e l E U IH]; intros [|v x] Lx G; simpl in *; try discriminate; constructor.
  - subst. inversion G; auto.
  - inversion G; auto.
Qed.

Lemma swap_feasible du dk r : sm = Swap -> uniform_dims ds -> feasible ds x0 -> ts_evolute m fit ds sm w tenure ngen du dk x0 = Some r ->
  feasible ds (tr_x r) /\ Forall (feasible ds) (stood x0 (tr_trail r)).
Proof.
  intros E U F H. destruct (swap_permutation _ _ _ E H) as (P1 & P2). split; [eapply uniform_feasible; eauto|].
  eapply Forall_impl; [|exact P2]. intros z. apply uniform_feasible; auto.
Qed.

(** Totality. *)
Lemma ts_total du dk : ngen <> 0 -> length x0 = dim -> match sm with Perturb => 1 <= dim | Swap => 2 <= dim /\ tour dim x0 end ->
  exists r, ts_evolute m fit ds sm w tenure ngen du dk x0 = Some r.
Proof.
  intros Hn L Hs. unfold ts_evolute. rewrite L, Nat.eqb_refl. cbn [negb]. cbv zeta. apply Nat.eqb_neq in Hn. rewrite Hn. fold ts_s0.
  set (G := fun x : list Q => length x = dim /\ match sm with Perturb => True | Swap => Permutation x0 x end).
  assert (Ne : ts_structure sm dim <> []).
  { unfold ts_structure. intros Z. apply map_eq_nil in Z. destruct sm.
    - apply map_eq_nil in Z. destruct dim as [|[|n]]; simpl in *; try lia. discriminate.
    - apply map_eq_nil in Z. destruct dim; simpl in *; [lia|discriminate]. }
  assert (Up : forall l i x mv, In mv (map te_move (ts_structure sm dim)) -> G x -> exists c, ts_update ds (du l i) (dk l i) x mv = Some c).
  { intros l i x mv Hin (Lx & Gx). destruct sm.
    - destruct Hs as (_ & (_ & T)). apply swap_moves in Hin. destruct Hin as (a & b & -> & Ha & Hb). cbn [ts_update].
      assert (K : forall a, 1 <= a <= dim -> exists j, index_of (qnat a) x = Some j).
      { intros a' Ha'. destruct (T a' Ha') as (q & Q1 & Q2). eapply index_of_total; eauto. eapply Permutation_in; eauto. }
      destruct (K a Ha) as (i1 & E1), (K b Hb) as (i2 & E2). rewrite E1, E2. cbn [bind]. apply index_of_spec in E1, E2. destruct E1 as (q1 & E1 & _), E2 as (q2 & E2 & _).
      unfold exchange. rewrite E1, E2. cbn [bind]. eauto.
    - unfold ts_structure in Hin. rewrite map_map in Hin. cbn in Hin. rewrite map_id in Hin. apply in_map_iff in Hin. destruct Hin as (j & <- & Hj). apply in_seq in Hj.
      cbn [ts_update]. destruct (nth_len ds j) as (d & ->); [lia|]. cbn [bind]. destruct (nth_len x j) as (q & ->); [lia|]. cbn [bind]. eauto. }
  assert (Kp : forall l i x mv c, In mv (map te_move (ts_structure sm dim)) -> G x -> ts_update ds (du l i) (dk l i) x mv = Some c -> G c).
  { intros l i x mv c Hin (Lx & Gx) Hc. pose proof (update_move _ _ _ _ _ Hc) as (_ & Lc). split; [lia|]. destruct sm; auto.
    apply swap_moves in Hin. destruct Hin as (a & b & -> & _). cbn [ts_update] in Hc.
    apply bind_Some in Hc. destruct Hc as (i1 & _ & Hc). apply bind_Some in Hc. destruct Hc as (i2 & _ & Hc).
    apply exchange_spec in Hc. destruct Hc as (_ & _ & _ & _ & _ & _ & _ & _ & Pm). transitivity x; auto. }
  destruct (gens_nat_total (ts_gen m fit ds w tenure du dk) (fun k st => map te_move (tt_es st) = map te_move (ts_structure sm dim) /\ G (tt_pos st)) ngen 0 ts_s0) as (st & -> & _).
  2:{ cbn. split; auto. split; auto. destruct sm; auto. }
  2:{ cbn [bind]. eauto. }
  intros k st _ (A2 & Gp). unfold ts_gen.
  destruct (traverse_total (fun i e => let* c := ts_update ds (du k i) (dk k i) (tt_pos st) (te_move e) in
    let f := sc c in Some (Ent (te_move e) (te_time e) f (te_freq e) (Fin (f + qnat (te_freq e) * w)%Q), c)) (fun e => In (te_move e) (map te_move (ts_structure sm dim))) (tt_es st) 0) as (ec & Ec).
  { intros i e He. destruct (Up k i (tt_pos st) _ He Gp) as (c & ->). cbn [bind]. cbv zeta. eauto. }
  { apply Forall_forall. intros e He. rewrite <- A2. apply in_map. auto. }
  change (traverse _ 0 (tt_es st)) with (ts_scan m fit ds w (du k) (dk k) (tt_pos st) (tt_es st)) in Ec. rewrite Ec. cbn [bind]. cbv zeta.
  assert (GC : Forall (fun p => G (snd p)) ec).
  { assert (K : Forall2 (fun (_ : tent) p => G (snd p)) (tt_es st) ec).
    { unfold ts_scan in Ec. eapply traverse_Forall2; [|exact Ec]. cbv beta zeta. intros i e p He Hp. apply bind_Some in Hp. destruct Hp as (c & Ec' & Hp). inversion Hp; subst p. cbn.
      eapply Kp; [|exact Gp|exact Ec']. rewrite <- A2. apply in_map; auto. }
    clear - K. induction K; constructor; auto. }
  pose proof (scan_spec _ _ _ _ _ Ec) as RS. assert (Le : length ec = length (tt_es st)) by (symmetry; eapply Forall2_length; eauto).
  assert (Pos : 0 < length (map fst ec)).
  { rewrite map_length, Le, <- (map_length te_move), A2, map_length. destruct (ts_structure sm dim); [congruence|simpl; lia]. }
  destruct (nth_len (map fst ec) (length (map fst ec) - 1)) as (last & ->); [lia|]. cbn [bind].
  destruct (choose_total (S (length (map fst ec))) (tt_iter st) (snd (tt_best st)) (map fst ec)) as ([es1 ch] & Ech).
  { intros Z. rewrite Z in Pos. simpl in Pos. lia. }
  { unfold cnt. clear. induction (map fst ec) as [|a l IH]; simpl; [lia|]. destruct (isfin a); simpl; lia. }
  rewrite Ech. cbn [bind]. apply (choose_spec _ _ _ (map fst ec)) in Ech; [|apply shrunk_refl]. destruct Ech as (RC & Ch).
  assert (Mv : map te_move es1 = map te_move (tt_es st)).
  { rewrite (moves_shrunk _ _ _ _ RC). clear - RS. induction RS; simpl; f_equal; auto. apply H. }
  destruct ch as [[i asp]|].
  - destruct Ch as (e' & He' & _). rewrite nth_error_map in He'. destruct (nth_error ec i) as [p|] eqn:Ep; [|discriminate].
    destruct (nth_len es1 i) as (e & Ee). { apply Forall2_length in RC. rewrite <- RC, map_length. apply nth_error_Some. congruence. }
    rewrite Ee. cbn [bind]. cbv zeta. rewrite Forall_forall in GC. specialize (GC p (nth_error_In _ _ Ep)).
    destruct asp; cbn [bind]; eexists; (split; [reflexivity|]); cbn [tt_es tt_pos]; split; auto; rewrite (map_set_nth te_move es1 i e); auto; congruence.
  - cbn [bind]. eexists. split; [reflexivity|]. cbn. split; auto. congruence.
Qed.
End P.
