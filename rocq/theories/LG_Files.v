From Coq Require Import Ascii String List Arith ZArith QArith Bool Lia Permutation.
From Verif Require Import LG_Model LG_Spec LG_Proofs.
Import ListNotations.
Open Scope nat_scope.

(** ** Lines and cells *)
Definition nl (l : text) : text := l ++ [newline].
Lemma readlines_line : forall l rest, ~ In newline l -> readlines (nl l ++ rest) = nl l :: readlines rest.
Proof.
  induction l as [|c l IH]; intros rest H. reflexivity. unfold nl in *. cbn -[newline]. destruct (ascii_dec c newline) as [E|_]. destruct H. now left.
  rewrite <- app_assoc in *. cbn -[newline]. cbn -[newline] in IH. specialize (IH rest). rewrite <- app_assoc in IH. cbn -[newline] in IH. rewrite IH by (intro; apply H; now right). reflexivity.
Qed.
Lemma readlines_file : forall ls, (forall l, In l ls -> ~ In newline l) -> readlines (flat_map nl ls) = map nl ls.
Proof. induction ls as [|l ls IH]; intros H; auto. cbn [flat_map map]. rewrite readlines_line by (apply H; now left). rewrite IH; auto. intros x Hx. apply H. now right. Qed.
Lemma split_line : forall c l rest, ~ In c l -> split c (l ++ c :: rest) = l :: split c rest.
Proof.
  induction l as [|x l IH]; intros rest H; cbn.
  - destruct (ascii_dec c c); congruence.
  - destruct (ascii_dec x c) as [E|_]. destruct H. now left. rewrite IH by (intro; apply H; now right). reflexivity.
Qed.
Lemma split_none : forall c l, ~ In c l -> split c l = [l].
Proof. induction l as [|x l IH]; intros H; auto. cbn. destruct (ascii_dec x c) as [E|_]. destruct H. now left. rewrite IH by (intro; apply H; now right). reflexivity. Qed.
Lemma split_file : forall ls, (forall l, In l ls -> ~ In newline l) -> split newline (flat_map nl ls) = ls ++ [[]].
Proof.
  induction ls as [|l ls IH]; intros H; auto. cbn [flat_map]. unfold nl at 1. rewrite <- app_assoc. cbn [app].
  rewrite split_line by (apply H; now left). rewrite IH; auto. intros x Hx. apply H. now right.
Qed.
Lemma split_join : forall ls, ls <> [] -> (forall l, In l ls -> ~ In comma l) -> split comma (join ls) = ls.
Proof.
  induction ls as [|a ls IH]; intros N H. congruence. destruct ls as [|b ls]. cbn [join]. apply split_none. apply H. now left.
  change (join (a :: b :: ls)) with (a ++ comma :: join (b :: ls)). rewrite split_line by (apply H; now left). rewrite IH; auto. discriminate. intros l Hl. apply H. now right.
Qed.
Lemma join_app : forall a b, a <> [] -> join (a ++ b) = join a ++ flat_map (fun x => comma :: x) b.
Proof.
  induction a as [|x a IH]; intros b N. congruence. destruct a as [|y a].
  - change ([x] ++ b) with (x :: b). change (join [x]) with x. clear. revert x. induction b as [|z b IH]; intro x. cbn. now rewrite app_nil_r. change (join (x :: z :: b)) with (x ++ comma :: join (z :: b)). rewrite IH. cbn [flat_map]. reflexivity.
  - change ((x :: y :: a) ++ b) with (x :: (y :: a) ++ b). change (join (x :: (y :: a) ++ b)) with (x ++ comma :: join ((y :: a) ++ b)). rewrite IH by discriminate.
    change (join (x :: y :: a)) with (x ++ comma :: join (y :: a)). now rewrite <- app_assoc.
Qed.
Lemma in_join : forall c ls, In c (join ls) -> c = comma \/ exists l, In l ls /\ In c l.
Proof.
  induction ls as [|a ls IH]; intro H. destruct H. destruct ls as [|b ls]. right. exists a. split; auto. now left.
  change (join (a :: b :: ls)) with (a ++ comma :: join (b :: ls)) in H. apply in_app_iff in H. destruct H as [H|[H|H]].
  - right. exists a. split; auto. now left.
  - now left.
  - destruct (IH H) as [E|[l [L1 L2]]]; auto. right. exists l. split; auto. now right.
Qed.
Lemma newline_comma : newline <> comma.
Proof. discriminate. Qed.

(** ** The CSV file *)
Section CsvFile.
  Variable shown : val -> text.
  Variable order : list text -> list text.
  Hypothesis order_perm : forall l, Permutation (order l) l.
  Notation cell := (csv_cell shown).
  Notation write := (csv_write shown order).
  Lemma mem_spec : forall k l, mem k l = true <-> In k l.
  Proof.
    intros. unfold mem. rewrite existsb_exists. split.
    - intros [x [H1 H2]]. destruct (text_eqb_spec k x); [now subst|congruence].
    - intro H. exists k. split; auto. apply text_eqb_refl.
  Qed.
  Lemma get_none : forall B k (d : dict B), get k d = None <-> ~ In k (map fst d).
  Proof.
    induction d as [|[j v] d IH]; cbn. tauto. destruct (text_eqb_spec k j) as [->|N].
    - split; [discriminate|]. intro H. destruct H. now left.
    - rewrite IH. split; intros H; [intros [E|E]; congruence + auto|]. auto.
  Qed.
  Lemma get_in : forall B k (d : dict B) v, get k d = Some v -> In (k, v) d.
  Proof.
    induction d as [|[j w] d IH]; cbn; intros v H. discriminate. destruct (text_eqb_spec k j) as [->|N]. injection H as ->. now left. right. auto.
  Qed.
  (** The file that should be there. *)
  Definition lines (ks : list text) (kvss : list (dict val)) : list text := join ks :: map (fun d => join (map (cell d) ks)) kvss.
  Record good (c : csv) (kvss : list (dict val)) : Prop := {
    g_file : file c = flat_map nl (lines (keys c) kvss);
    g_pos : pos c = length (file c);
    g_ne : keys c <> [];
    g_nodup : NoDup (keys c);
    g_keys : forall k, In k (keys c) <-> exists d, In d kvss /\ In k (map fst d);
    g_clean : forall k, In k (keys c) -> ~ In newline k }.
  Definition cleaned (d : dict val) : Prop := NoDup (map fst d) /\ clean_dict shown d.
  Lemma cell_clean : forall d k, cleaned d -> ~ In newline (cell d k) /\ ~ In comma (cell d k).
  Proof.
    intros d k [_ H]. unfold csv_cell. destruct (get k d) as [v|] eqn:E; [|split; intros []]. apply get_in in E. destruct (H k v E) as [_ [C1 [C2 _]]].
    destruct v; split; auto.
  Qed.
  Lemma line_clean : forall ks kvss, (forall k, In k ks -> ~ In newline k) -> Forall cleaned kvss -> forall l, In l (lines ks kvss) -> ~ In newline l.
  Proof.
    intros ks kvss Hk Hd l [<-|Hl] Hn.
    - apply in_join in Hn. destruct Hn as [Hn|[x [X1 X2]]]. now apply newline_comma. now apply (Hk x).
    - apply in_map_iff in Hl. destruct Hl as [d [<- Hi]]. apply in_join in Hn. destruct Hn as [Hn|[x [X1 X2]]]. now apply newline_comma.
      apply in_map_iff in X1. destruct X1 as [k [<- _]]. rewrite Forall_forall in Hd. now apply (proj1 (cell_clean d k (Hd d Hi))).
  Qed.
  Lemma overwrite_end : forall w f, overwrite (length f) w f = f ++ w.
  Proof. intros. unfold overwrite. rewrite firstn_all, skipn_all2 by lia. now rewrite app_nil_r. Qed.
  Lemma overwrite_0 : forall w f, length f <= length w -> overwrite 0 w f = w.
  Proof. intros. unfold overwrite. cbn [firstn app Nat.add]. rewrite skipn_all2 by lia. now rewrite app_nil_r. Qed.
  (** The body that is rewritten for extra keys. *)
  Definition body (f : text) (ks extra : list text) : text :=
    (join (ks ++ extra) ++ [newline]) ++ flat_map (fun l => removelast l ++ repeat comma (length extra) ++ [newline]) (tl (readlines f)).
  Lemma grown : forall d ks extra, ks <> [] -> (forall k, In k extra -> ~ In k (map fst d)) -> join (map (cell d) (ks ++ extra)) = join (map (cell d) ks) ++ repeat comma (length extra).
  Proof.
    intros d ks extra N H. rewrite map_app, join_app by (destruct ks; [congruence|discriminate]). f_equal. clear N.
    induction extra as [|k extra IH]; auto. cbn. unfold csv_cell at 1. rewrite (proj2 (get_none _ k d)) by (apply H; now left). cbn. f_equal. apply IH. intros x Hx. apply H. now right.
  Qed.
  Lemma removelast_nl : forall l, removelast (nl l) = l.
  Proof. intro l. unfold nl. now rewrite removelast_last. Qed.
  Lemma body_lines : forall ks extra kvss, ks <> [] -> (forall k, In k ks -> ~ In newline k) -> Forall cleaned kvss ->
    (forall d k, In d kvss -> In k extra -> ~ In k (map fst d)) -> body (flat_map nl (lines ks kvss)) ks extra = flat_map nl (lines (ks ++ extra) kvss).
  Proof.
    intros ks extra kvss N Hk Hd He. unfold body. rewrite readlines_file by (now apply line_clean). cbn [lines map tl flat_map]. f_equal.
    clear Hk Hd. induction kvss as [|d kvss IH]; auto. cbn [map flat_map]. rewrite removelast_nl. unfold nl at 2. rewrite <- !app_assoc, grown.
    - rewrite <- !app_assoc. f_equal. f_equal. cbn [app]. f_equal. apply IH. intros d' k Hd'. apply He. now right.
    - exact N.
    - intros k Hkk. apply He; auto. now left.
  Qed.
  Lemma lines_longer : forall ks extra kvss, ks <> [] -> (forall d k, In d kvss -> In k extra -> ~ In k (map fst d)) ->
    length (flat_map nl (lines ks kvss)) <= length (flat_map nl (lines (ks ++ extra) kvss)).
  Proof.
    intros ks extra kvss N He. unfold lines. cbn [flat_map]. rewrite !app_length. unfold nl at 1 3. rewrite !app_length. rewrite join_app by auto. rewrite app_length.
    assert (length (flat_map nl (map (fun d => join (map (cell d) ks)) kvss)) <= length (flat_map nl (map (fun d => join (map (cell d) (ks ++ extra))) kvss))); [|lia].
    induction kvss as [|d kvss IH]; auto. cbn [map flat_map]. rewrite !app_length. unfold nl at 1 3. rewrite !app_length. rewrite grown, app_length; auto.
    - specialize (IH (fun d' k Hd' => He d' k (or_intror Hd'))). lia.
    - intros k Hk. apply He; auto. now left.
  Qed.
  Lemma extra_in : forall ks (d : dict val) k, In k (order (filter (fun k => negb (mem k ks)) (map fst d))) <-> In k (map fst d) /\ ~ In k ks.
  Proof.
    intros. split; intro H.
    - apply (Permutation_in _ (order_perm _)) in H. apply filter_In in H. destruct H as [H1 H2]. split; auto. rewrite <- mem_spec. destruct (mem k ks); [discriminate|]. congruence.
    - apply (Permutation_in _ (Permutation_sym (order_perm _))). apply filter_In. destruct H as [H1 H2]. split; auto. rewrite <- mem_spec in H2. destruct (mem k ks); auto.
  Qed.
  Lemma extra_nodup : forall ks (d : dict val), NoDup (map fst d) -> NoDup (order (filter (fun k => negb (mem k ks)) (map fst d))).
  Proof. intros. apply (Permutation_NoDup (Permutation_sym (order_perm _))). now apply NoDup_filter. Qed.
  Lemma nodup_app : forall (a b : list text), NoDup a -> NoDup b -> (forall x, In x b -> ~ In x a) -> NoDup (a ++ b).
  Proof.
    induction a as [|x a IH]; intros b Ha Hb H; auto. cbn. inversion Ha; subst. constructor.
    - intro C. apply in_app_iff in C. destruct C as [C|C]; auto. apply (H x C). now left.
    - apply IH; auto. intros y Hy C. apply (H y Hy). now right.
  Qed.
  Lemma write_good : forall c kvss d, good c kvss -> Forall cleaned kvss -> cleaned d -> good (write c d) (kvss ++ [d]) /\ exists e, keys (write c d) = keys c ++ e.
  Proof.
    intros c kvss d G Hk Hd. unfold csv_write. set (extra := order _).
    assert (EI : forall k, In k extra <-> In k (map fst d) /\ ~ In k (keys c)) by (intro; apply extra_in).
    assert (Hx : forall d' k, In d' kvss -> In k extra -> ~ In k (map fst d')).
    { intros d' k H1 H2 H3. apply EI in H2. destruct H2 as [_ H2]. apply H2. apply (g_keys _ _ G). eauto. }
    set (c' := match extra with [] => c | _ => _ end).
    assert (C : file c' = flat_map nl (lines (keys c') kvss) /\ pos c' = length (file c') /\ keys c' = keys c ++ extra).
    { subst c'. destruct extra as [|e es] eqn:Ee.
      - rewrite app_nil_r. split. apply G. split; auto. apply G.
      - rewrite <- Ee in *. cbn [file pos keys]. fold (body (file c) (keys c) extra). rewrite (g_file _ _ G). rewrite body_lines by (auto; apply G).
        rewrite overwrite_0 by (apply lines_longer; auto; apply G). auto. }
    destruct C as [C1 [C2 C3]]. split; [|exists extra; exact C3]. clearbody c'. constructor; cbn [file pos keys].
    - rewrite C2, overwrite_end, C1. unfold lines. cbn [flat_map]. rewrite <- app_assoc. f_equal. rewrite map_app, flat_map_app. f_equal. cbn. now rewrite app_nil_r.
    - rewrite C2, overwrite_end. now rewrite !app_length.
    - rewrite C3. pose proof (g_ne _ _ G). destruct (keys c); [congruence|discriminate].
    - rewrite C3. apply nodup_app. apply G. apply extra_nodup. apply Hd. intros x Hx'. apply EI in Hx'. tauto.
    - intro k. rewrite C3, in_app_iff, EI, (g_keys _ _ G). split.
      + intros [[d' [D1 D2]]|[D1 D2]]. exists d'. split; auto. apply in_app_iff. now left. exists d. split; auto. apply in_app_iff. right. now left.
      + intros [d' [D1 D2]]. apply in_app_iff in D1. destruct D1 as [D1|[<-|[]]]. left. eauto.
        destruct (in_dec (list_eq_dec ascii_dec) k (keys c)) as [I|I]. left. now apply (g_keys _ _ G). right. split; auto. rewrite <- (g_keys _ _ G). exact I.
    - intros k Hkk. rewrite C3 in Hkk. apply in_app_iff in Hkk. destruct Hkk as [Hkk|Hkk]. now apply (g_clean _ _ G). apply EI in Hkk. destruct Hkk as [Hkk _].
      apply in_map_iff in Hkk. destruct Hkk as [[k0 v] [<- Hi]]. destruct Hd as [_ Hd]. apply (proj1 (Hd k0 v Hi)).
  Qed.
  Lemma first_good : forall d, d <> [] -> cleaned d -> good (write csv0 d) [d].
  Proof.
    intros d N Hd. unfold csv_write. set (extra := order _).
    assert (EI : forall k, In k extra <-> In k (map fst d)) by (intro; subst extra; rewrite extra_in; cbn; tauto).
    assert (Ne : extra <> []). { destruct d as [|[k v] d]; [congruence|]. intro E. assert (In k extra) by (apply EI; now left). rewrite E in H. destruct H. }
    destruct extra as [|e es] eqn:Ee; [congruence|]. rewrite <- Ee in *. cbn [file pos keys csv0 app readlines tl flat_map]. rewrite app_nil_r.
    rewrite overwrite_0 by (cbn; lia). constructor; cbn [file pos keys].
    - rewrite overwrite_end. unfold lines. cbn [flat_map map]. now rewrite app_nil_r.
    - rewrite overwrite_end. now rewrite !app_length.
    - exact Ne.
    - unfold extra. apply extra_nodup. apply Hd.
    - intro k. rewrite EI. split. intro H. exists d. split; auto. now left. intros [d' [[<-|[]] H]]. exact H.
    - intros k Hkk. apply EI in Hkk. apply in_map_iff in Hkk. destruct Hkk as [[k0 v] [<- Hi]]. destruct Hd as [_ Hd]. apply (proj1 (Hd k0 v Hi)).
  Qed.
  Lemma writes_good : forall kvss c before, good c before -> Forall cleaned before -> Forall cleaned kvss ->
    good (fold_left write kvss c) (before ++ kvss) /\ exists e, keys (fold_left write kvss c) = keys c ++ e.
  Proof.
    induction kvss as [|d kvss IH]; intros c before G Hb Hk. rewrite app_nil_r. split; auto. exists []. now rewrite app_nil_r.
    inversion Hk; subst. destruct (write_good c before d G Hb H1) as [G' [e He]]. cbn [fold_left].
    destruct (IH (write c d) (before ++ [d]) G') as [G2 [e2 He2]]; auto. apply Forall_app. split; auto.
    rewrite <- app_assoc in G2. split; auto. exists (e ++ e2). now rewrite He2, He, app_assoc.
  Qed.
  Lemma good_table : forall c kvss, good c kvss -> Forall cleaned kvss -> (forall k, In k (keys c) -> ~ In comma k) ->
    table (file c) = keys c :: map (fun d => map (cell d) (keys c)) kvss.
  Proof.
    intros c kvss G Hk Hc. unfold table. rewrite (g_file _ _ G). rewrite split_file by (apply line_clean; auto; apply G). rewrite removelast_last. unfold lines. cbn [map].
    rewrite split_join by (auto; apply G). f_equal. rewrite map_map. apply map_ext_in. intros d Hd. apply split_join.
    - pose proof (g_ne _ _ G). destruct (keys c); [congruence|discriminate].
    - intros l Hl. apply in_map_iff in Hl. destruct Hl as [k [<- _]]. rewrite Forall_forall in Hk. apply cell_clean. auto.
  Qed.
  Lemma csv_table : forall d0 kvss, d0 <> [] -> Forall dictionary (d0 :: kvss) -> Forall (clean_dict shown) (d0 :: kvss) ->
    let c := fold_left write (d0 :: kvss) csv0 in
    NoDup (keys c) /\ (forall k, In k (keys c) <-> exists d, In d (d0 :: kvss) /\ In k (map fst d)) /\
    table (file c) = keys c :: map (fun d => map (printed shown d) (keys c)) (d0 :: kvss) /\ exists f, file c = f ++ [newline].
  Proof.
    intros d0 kvss N H1 H2 c.
    assert (Hc : Forall cleaned (d0 :: kvss)). { rewrite Forall_forall in *. intros d Hd. split. now apply H1. now apply H2. }
    inversion Hc; subst. destruct (writes_good kvss (write csv0 d0) [d0]) as [G _]; auto. now apply first_good.
    change (fold_left write kvss (write csv0 d0)) with c in G. cbn [app] in G. split. apply G. split. apply G. split.
    - rewrite (good_table c _ G Hc). f_equal.
      intros k Hk. apply (g_keys _ _ G) in Hk. destruct Hk as [d [D1 D2]]. apply in_map_iff in D2. destruct D2 as [[k0 v] [<- D2]].
      rewrite Forall_forall in H2. apply (proj1 (H2 d D1 k0 v D2)).
    - rewrite (g_file _ _ G). set (ls := lines _ _). assert (E : ls <> []) by discriminate. destruct (exists_last E) as [a [b ->]].
      exists (flat_map nl a ++ b). rewrite flat_map_app. cbn. rewrite app_nil_r. unfold nl at 2. now rewrite app_assoc.
  Qed.
  Lemma csv_columns : forall d0 kvss more, d0 <> [] -> Forall dictionary (d0 :: kvss ++ more) -> Forall (clean_dict shown) (d0 :: kvss ++ more) ->
    exists e, keys (fold_left write (d0 :: kvss ++ more) csv0) = keys (fold_left write (d0 :: kvss) csv0) ++ e.
  Proof.
    intros d0 kvss more N H1 H2.
    assert (Hc : Forall cleaned (d0 :: kvss ++ more)). { rewrite Forall_forall in *. intros d Hd. split. now apply H1. now apply H2. }
    inversion Hc; subst. apply Forall_app in H4. destruct H4 as [A B].
    destruct (writes_good kvss (write csv0 d0) [d0]) as [G _]; auto. now apply first_good. cbn [fold_left]. rewrite fold_left_app.
    apply (writes_good more _ _ G); auto. apply Forall_app. split; auto.
  Qed.
End CsvFile.

(** ** The human readable table *)
Lemma leb_refl : forall a, text_leb a a = true.
Proof. induction a as [|x a IH]; auto. cbn [text_leb]. rewrite Nat.ltb_irrefl, Nat.eqb_refl. exact IH. Qed.
Lemma leb_total : forall a b, text_leb a b = true \/ text_leb b a = true.
Proof.
  induction a as [|x a IH]; intros [|y b]; cbn [text_leb]; auto. destruct (Nat.ltb_spec (nat_of_ascii x) (nat_of_ascii y)); auto.
  destruct (Nat.eqb_spec (nat_of_ascii x) (nat_of_ascii y)) as [->|N]. rewrite Nat.ltb_irrefl, Nat.eqb_refl. auto.
  right. now rewrite (proj2 (Nat.ltb_lt _ _)) by lia.
Qed.
Lemma nat_ascii_inj : forall x y, nat_of_ascii x = nat_of_ascii y -> x = y.
Proof. intros x y H. rewrite <- (ascii_nat_embedding x), <- (ascii_nat_embedding y). now rewrite H. Qed.
Lemma leb_antisym : forall a b, text_leb a b = true -> text_leb b a = true -> a = b.
Proof.
  induction a as [|x a IH]; intros [|y b]; cbn [text_leb]; auto; try discriminate.
  destruct (Nat.ltb_spec (nat_of_ascii x) (nat_of_ascii y)) as [L|L].
  - intros _. destruct (Nat.ltb_spec (nat_of_ascii y) (nat_of_ascii x)); [lia|]. destruct (Nat.eqb_spec (nat_of_ascii y) (nat_of_ascii x)); [lia|discriminate].
  - destruct (Nat.eqb_spec (nat_of_ascii x) (nat_of_ascii y)) as [E|N]; [|discriminate]. rewrite <- E, Nat.ltb_irrefl, Nat.eqb_refl. intros A B.
    f_equal. now apply nat_ascii_inj. auto.
Qed.
Lemma leb_trans : forall a b c, text_leb a b = true -> text_leb b c = true -> text_leb a c = true.
Proof.
  induction a as [|x a IH]; intros [|y b] [|z c]; cbn [text_leb]; auto; try discriminate.
  destruct (Nat.ltb_spec (nat_of_ascii x) (nat_of_ascii y)) as [L|L].
  - intros _. destruct (Nat.ltb_spec (nat_of_ascii y) (nat_of_ascii z)) as [M|M].
    + intros _. now rewrite (proj2 (Nat.ltb_lt _ _)) by lia.
    + destruct (Nat.eqb_spec (nat_of_ascii y) (nat_of_ascii z)) as [E|]; [|discriminate]. intros _. now rewrite (proj2 (Nat.ltb_lt _ _)) by lia.
  - destruct (Nat.eqb_spec (nat_of_ascii x) (nat_of_ascii y)) as [E|]; [|discriminate]. intro A. rewrite E.
    destruct (Nat.ltb_spec (nat_of_ascii y) (nat_of_ascii z)); auto. destruct (Nat.eqb_spec (nat_of_ascii y) (nat_of_ascii z)); [|discriminate]. now apply IH.
Qed.
Lemma insert_perm : forall B (p : text * B) l, Permutation (insert p l) (p :: l).
Proof. induction l as [|q l IH]; auto. cbn. destruct (text_leb (fst p) (fst q)); auto. rewrite IH. apply perm_swap. Qed.
Lemma sorted_perm : forall B (l : dict B), Permutation (sorted l) l.
Proof. induction l as [|p l IH]; auto. cbn. rewrite insert_perm. now constructor. Qed.
Lemma sorted_increasing : forall B (l : dict B), NoDup (map fst l) -> increasing (sorted l).
Proof.
  intros B l. induction l as [|p l IH]; intro H. exact I. inversion H; subst. specialize (IH H3). cbn [sorted fold_right]. change (fold_right insert [] l) with (sorted l).
  assert (Np : forall q, In q (sorted l) -> fst p <> fst q).
  { intros q Hq E. apply H2. rewrite E. apply in_map. now apply (Permutation_in _ (sorted_perm _ l)). }
  clear H H2 H3. induction (sorted l) as [|q r IHr]. cbn. tauto. cbn [insert]. destruct (text_leb (fst p) (fst q)) eqn:E.
  - cbn [increasing]. split; auto. intros x [<-|Hx]. split; auto. apply Np. now left. destruct IH as [I1 I2]. split. apply (leb_trans _ (fst q)); auto. now apply I1. apply Np. now right.
  - cbn [increasing]. destruct IH as [I1 I2]. split.
    + intros x Hx. apply (Permutation_in _ (insert_perm _ p r)) in Hx. destruct Hx as [<-|Hx]; [|now apply I1].
      split. destruct (leb_total (fst p) (fst q)); congruence. intro E2. apply (Np q). now left. auto.
    + apply IHr; auto. intros x Hx. apply Np. now right.
Qed.
Section HumanTable.
  Variable shown : val -> text.
  Variable general : Q -> text.
  Notation k2s := (key2str shown general).
  Lemma put_keys : forall B k (v : B) d, (forall j, In j (map fst (put k v d)) <-> j = k \/ In j (map fst d)) /\ (NoDup (map fst d) -> NoDup (map fst (put k v d))).
  Proof.
    induction d as [|[i w] d [IH1 IH2]]; cbn.
    - split. intro j. intuition. constructor. intros []. constructor.
    - destruct (text_eqb_spec k i) as [->|N]; cbn.
      + split. intro j. intuition. auto.
      + split. intro j. rewrite IH1. intuition. intro H. inversion H; subst. constructor; auto. rewrite IH1. intros [E|E]; congruence + auto.
  Qed.
  Definition folded (l : dict val) (d : dict text) := fold_left (fun d p => put (truncate (fst p)) (truncate (valstr shown general (snd p))) d) l d.
  (** The value of the last pair whose key is cut to k'. *)
  Lemma folded_get : forall l d k', increasing l ->
    get k' (folded l d) = Some (match get k' (folded l d) with Some v => v | None => [] end) ->
    (get k' (folded l d) = get k' d /\ (forall p, In p l -> truncate (fst p) <> k')) \/
    (exists p, In p l /\ truncate (fst p) = k' /\ get k' (folded l d) = Some (truncate (valstr shown general (snd p))) /\ (forall q, In q l -> truncate (fst q) = k' -> text_leb (fst q) (fst p) = true)).
  Proof.
    induction l as [|p l IH]; intros d k' Hi H. left. split; auto; try (intros ? []). destruct Hi as [I1 I2]. cbn [folded fold_left] in *. fold (folded l) in *.
    destruct (IH _ k' I2 H) as [[E N]|[q [Q1 [Q2 [Q3 Q4]]]]].
    - rewrite get_put in E. destruct (text_eqb_spec k' (truncate (fst p))) as [Ek|Nk].
      + right. exists p. split. now left. split; auto. split; auto. intros q [<-|Hq] Hk. apply leb_refl. destruct (N q Hq Hk).
      + left. split; auto. intros q [<-|Hq]; auto.
    - right. exists q. split. now right. split; auto. split; auto. intros r [<-|Hr] Hk; auto. now apply I1.
  Qed.
  Lemma folded_keys : forall l d k', In k' (map fst (folded l d)) <-> In k' (map fst d) \/ exists p, In p l /\ truncate (fst p) = k'.
  Proof.
    induction l as [|p l IH]; intros d k'. cbn. split; [auto|]. intros [H|[p [[] _]]]. exact H.
    cbn [folded fold_left]. fold (folded l). rewrite IH. rewrite (proj1 (put_keys _ _ _ d)). split.
    - intros [[->|H]|[q [H1 H2]]]. right. exists p. split; auto. now left. now left. right. exists q. split; auto. now right.
    - intros [H|[q [[<-|H1] H2]]]. left. now right. left. now left. right. eauto.
  Qed.
  Lemma folded_nodup : forall l d, NoDup (map fst d) -> NoDup (map fst (folded l d)).
  Proof. induction l as [|p l IH]; intros d H; auto. cbn. apply IH. now apply (proj2 (put_keys _ _ _ d)). Qed.
  Lemma in_get : forall B (d : dict B) k v, NoDup (map fst d) -> In (k, v) d -> get k d = Some v.
  Proof.
    induction d as [|[j w] d IH]; intros k v H Hi. destruct Hi. inversion H; subst. cbn. destruct Hi as [E|Hi].
    - injection E as -> ->. now rewrite text_eqb_refl.
    - destruct (text_eqb_spec k j) as [->|N]; auto. destruct H2. apply (in_map fst _ _ Hi).
  Qed.
  Lemma k2s_rows : forall kvs k' v', dictionary kvs -> (In (k', v') (k2s kvs) <-> human_row shown general kvs k' v').
  Proof.
    intros kvs k' v' H. unfold key2str. fold (folded (sorted kvs) []).
    assert (Inc : increasing (sorted kvs)) by (now apply sorted_increasing).
    assert (P : forall p, In p (sorted kvs) <-> In p kvs) by (intro p; split; apply Permutation_in; [|symmetry]; apply sorted_perm).
    assert (ND : NoDup (map fst (folded (sorted kvs) []))) by (apply folded_nodup; constructor).
    assert (Uniq : forall p q, In p kvs -> In q kvs -> fst p = fst q -> p = q).
    { intros [a b] [a' b'] H1 H2 E. cbn in E. subst a'. apply in_get in H1; auto. apply in_get in H2; auto. congruence. }
    split.
    - intro Hi. apply in_get in Hi; auto. destruct (folded_get (sorted kvs) [] k' Inc) as [[E N]|[p [P1 [P2 [P3 P4]]]]].
      + now rewrite Hi.
      + rewrite Hi in E. discriminate E.
      + rewrite Hi in P3. injection P3 as ->. exists (fst p), (snd p). rewrite <- surjective_pairing. split. now apply P. split; auto. split; auto.
        intros k2 v2 H2 E2. apply (P4 (k2, v2)); auto. now apply P.
    - intros [k [v [H1 [H2 [H3 H4]]]]].
      assert (Hk : In k' (map fst (folded (sorted kvs) []))). { apply folded_keys. right. exists (k, v). split. now apply P. now symmetry. }
      apply in_map_iff in Hk. destruct Hk as [[k0 w] [E Hi]]. cbn in E. subst k0.
      assert (Hg := in_get _ _ _ _ ND Hi). destruct (folded_get (sorted kvs) [] k' Inc) as [[E N]|[p [P1 [P2 [P3 P4]]]]].
      + now rewrite Hg.
      + rewrite Hg in E. discriminate E.
      + assert (Ep : fst p = k). { apply leb_antisym. apply (H4 (fst p) (snd p)); auto. rewrite <- surjective_pairing. now apply P. apply (P4 (k, v)). now apply P. now symmetry. }
        assert (p = (k, v)) by (apply Uniq; auto; now apply P). subst p. rewrite Hg in P3. injection P3 as ->. cbn [snd] in Hi. now rewrite H3.
  Qed.
  Lemma width_max : forall l s, In s l -> length s <= width l.
  Proof. induction l as [|a l IH]; intros s []; cbn. subst. lia. specialize (IH s H). unfold width in IH. lia. Qed.
  Lemma line_length : forall kw vw p, length (fst p) <= kw -> length (snd p) <= vw -> length (human_line kw vw p) = kw + vw + 7.
  Proof. intros kw vw [a b] H H0. cbn [fst snd] in *. unfold human_line. cbn [fst snd]. rewrite !app_length, !repeat_length. change (length (t "| ")) with 2. change (length (t " | ")) with 3. change (length (t " |")) with 2.
 lia. Qed.
  Lemma human_table : forall kvs, dictionary kvs -> kvs <> [] ->
    exists rows kw vw, human_lines shown general kvs = [repeat "-"%char (kw + vw + 7)] ++ map (human_line kw vw) rows ++ [repeat "-"%char (kw + vw + 7)] /\
      increasing rows /\ (forall k' v', In (k', v') rows <-> human_row shown general kvs k' v') /\
      (forall l, In l (human_lines shown general kvs) -> length l = kw + vw + 7).
  Proof.
    intros kvs H N.
    assert (Ne : k2s kvs <> []).
    { destruct kvs as [|[k v] kvs]; [congruence|]. intro E.
      assert (Hk : In (truncate k) (map fst (k2s ((k, v) :: kvs)))).
      { unfold key2str. apply folded_keys. right. exists (k, v). split; auto. apply (Permutation_in _ (Permutation_sym (sorted_perm _ _))). now left. }
      rewrite E in Hk. destruct Hk. }
    set (d := k2s kvs) in *. exists (sorted d), (width (map fst d)), (width (map snd d)).
    assert (E : human_lines shown general kvs = [repeat "-"%char (width (map fst d) + width (map snd d) + 7)] ++ map (human_line (width (map fst d)) (width (map snd d))) (sorted d) ++ [repeat "-"%char (width (map fst d) + width (map snd d) + 7)]).
    { unfold human_lines. fold d. destruct d eqn:Ed; [congruence|]. reflexivity. }
    split. exact E. split. apply sorted_increasing. apply folded_nodup. constructor. split.
    - intros k' v'. rewrite <- (k2s_rows kvs k' v' H). fold d. split; apply Permutation_in; [|symmetry]; apply sorted_perm.
    - intros l Hl. rewrite E in Hl. apply in_app_iff in Hl. destruct Hl as [[<-|[]]|Hl]. apply repeat_length. apply in_app_iff in Hl. destruct Hl as [Hl|[<-|[]]]; [|apply repeat_length].
      apply in_map_iff in Hl. destruct Hl as [p [<- Hp]]. apply (Permutation_in _ (sorted_perm _ d)) in Hp. apply line_length; apply width_max; now apply in_map.
  Qed.
End HumanTable.
