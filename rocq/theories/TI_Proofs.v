From Coq Require Import List Arith Bool Lia.
From Verif Require Import TI_Model TI_Spec.
Import ListNotations.
Open Scope nat_scope.

Lemma flat_len : forall {A B} (f : A -> list B) h l, (forall a, In a l -> length (f a) = h) -> length (flat_map f l) = length l * h.
Proof. induction l as [|a l IH]; intros H; cbn [flat_map length]; [reflexivity|]. rewrite app_length, (H a) by (left; reflexivity). rewrite IH by (intros b Hb; apply H; right; exact Hb). lia. Qed.
Lemma flat_nth : forall {A B} (f : A -> list B) h l y, 0 < h -> (forall a, In a l -> length (f a) = h) ->
  nth_error (flat_map f l) y = match nth_error l (y / h) with Some a => nth_error (f a) (y mod h) | None => None end.
Proof.
  induction l as [|a l IH]; intros y Hh H; cbn [flat_map].
  - destruct y; destruct (_ / h); reflexivity.
  - assert (Ha : length (f a) = h) by (apply H; left; reflexivity).
    destruct (Nat.lt_ge_cases y h) as [L|L].
    + rewrite nth_error_app1 by lia. rewrite Nat.div_small, Nat.mod_small by lia. reflexivity.
    + rewrite nth_error_app2 by lia. rewrite Ha, IH by (auto; intros b Hb; apply H; right; exact Hb).
      replace (y / h) with (S ((y - h) / h)).
      2:{ replace y with ((y - h) + 1 * h) at 2 by lia. rewrite Nat.div_add by lia. lia. }
      replace (y mod h) with ((y - h) mod h).
      2:{ replace y with ((y - h) + 1 * h) at 2 by lia. rewrite Nat.mod_add by lia. reflexivity. }
      reflexivity.
Qed.
Lemma nth_firstn : forall {A} n (l : list A) i, nth_error (firstn n l) i = if i <? n then nth_error l i else None.
Proof.
  induction n as [|n IH]; intros l i; cbn [firstn]; [destruct i; reflexivity|].
  destruct l as [|a l]; [destruct i; destruct (_ <? _); reflexivity|]. destruct i as [|i]; [reflexivity|]. cbn [nth_error]. rewrite IH. reflexivity.
Qed.
Lemma nth_skipn : forall {A} n (l : list A) i, nth_error (skipn n l) i = nth_error l (n + i).
Proof. induction n as [|n IH]; intros l i; [reflexivity|]. destruct l as [|a l]; cbn [skipn]; [destruct i; reflexivity|]. apply IH. Qed.
Lemma skip_skip : forall {A} n m (l : list A), skipn m (skipn n l) = skipn (n + m) l.
Proof. induction n as [|n IH]; intros m l; [reflexivity|]. destruct l as [|a l]; cbn [skipn Nat.add]; [destruct m; reflexivity|]. apply IH. Qed.
Lemma rows_nth : forall {P} k width (l : list (@image P)) j, j < k -> nth_error (rows_of k width l) j = Some (firstn width (skipn (j * width) l)).
Proof.
  induction k as [|k IH]; intros width l j H; [lia|]. cbn [rows_of]. destruct j as [|j]; [reflexivity|]. cbn [nth_error]. rewrite IH by lia.
  rewrite skip_skip. reflexivity.
Qed.
Lemma rows_len : forall {P} k width (l : list (@image P)), length (rows_of k width l) = k.
Proof. induction k as [|k IH]; intros; cbn [rows_of length]; [reflexivity|]. rewrite IH. reflexivity. Qed.
Lemma rows_in : forall {P} k width (l : list (@image P)) r i, In r (rows_of k width l) -> In i r -> In i l.
Proof.
  induction k as [|k IH]; intros width l r i H Hi; [contradiction|]. cbn [rows_of] in H.
  rewrite <- (firstn_skipn width l). apply in_or_app. destruct H as [<-|H]; [left; exact Hi|right; eapply IH; eauto].
Qed.
(** ** The grid *)
Lemma sqrt_up_spec : forall n, 0 < n -> 0 < Nat.sqrt_up n /\ n <= Nat.sqrt_up n * Nat.sqrt_up n /\ (Nat.sqrt_up n - 1) * (Nat.sqrt_up n - 1) < n.
Proof.
  intros n H. pose proof (Nat.sqrt_up_spec n H) as [A B]. pose proof (Nat.sqrt_up_pos n) as C.
  replace (Nat.sqrt_up n - 1) with (Nat.pred (Nat.sqrt_up n)) by lia. lia.
Qed.
Lemma up_div : forall n h, 0 < h -> n <= h * ((n + h - 1) / h) /\ (0 < n -> h * ((n + h - 1) / h) < n + h).
Proof.
  intros n h H. pose proof (Nat.div_mod (n + h - 1) h ltac:(lia)) as E. pose proof (Nat.mod_upper_bound (n + h - 1) h ltac:(lia)) as M.
  split; [|intros _]; lia.
Qed.
Lemma grid : forall n, 0 < n ->
  let H := new_height n in let W := new_width n in
  n <= H * W /\ W <= H /\ H <= W + 1 /\ (H - 1) * W < n /\ 0 < W.
Proof.
  intros n Hn H W. destruct (sqrt_up_spec n Hn) as (A & B & C). fold (new_height n) in A, B, C. fold H in A, B, C.
  destruct (up_div n H A) as [D E]. specialize (E Hn). change ((n + H - 1) / H) with W in D, E.
  assert (W <= H) by (apply Nat.lt_succ_r; unfold W, new_width; fold H; apply Nat.div_lt_upper_bound; nia).
  clearbody W. clearbody H.
  assert (0 < W) by (destruct W; [rewrite Nat.mul_0_r in D; lia|lia]).
  assert (H <= W + 1) by (destruct (Nat.le_gt_cases H (W + 1)); [assumption|]; nia).
  repeat split; auto. 
  destruct (Nat.eq_dec H W) as [Q|Q].
  - rewrite <- Q in *. assert ((H - 1) * H = H * H - H) by nia. lia.
  - assert (W = H - 1) by lia. nia.
Qed.
Lemma grid_square : forall k, 0 < k -> new_height (k * k) = k /\ new_width (k * k) = k.
Proof.
  intros k H. assert (E : new_height (k * k) = k) by (unfold new_height; apply Nat.sqrt_up_square; lia). split; [exact E|].
  unfold new_width. rewrite E. replace (k * k + k - 1) with (k * k + (k - 1)) by lia. rewrite Nat.div_add_l by lia. rewrite Nat.div_small by lia. apply Nat.add_0_r.
Qed.

Section Tile.
Context {P : Type} (blank : P).
Lemma of_shape_iff : forall h w (i : @image P), of_shape h w i = true <-> shaped h w i.
Proof.
  intros. unfold of_shape, shaped. rewrite andb_true_iff, Nat.eqb_eq, forallb_forall. split; intros [A B]; split; auto; intros r Hr; [apply Nat.eqb_eq|apply Nat.eqb_eq]; auto.
Qed.
Lemma padded_len : forall h w l, 0 < length l -> length (padded blank h w l) = new_height (length l) * new_width (length l).
Proof. intros h w l H. unfold padded. rewrite app_length, repeat_length. destruct (grid _ H) as [A _]. lia. Qed.
Lemma padded_in : forall h w l i, (forall j, In j l -> shaped h w j) -> In i (padded blank h w l) -> shaped h w i.
Proof.
  intros h w l i H Hi. unfold padded in Hi. apply in_app_or in Hi. destruct Hi as [Hi|Hi]; [auto|].
  apply repeat_spec in Hi. subst i. split; [apply repeat_length|]. intros r Hr. apply repeat_spec in Hr. subst r. apply repeat_length.
Qed.
Lemma padded_pixel : forall h w l k y x, k < new_height (length l) * new_width (length l) -> y < h -> x < w ->
  pixel_of (padded blank h w l) k y x = if k <? length l then pixel_of l k y x else Some blank.
Proof.
  intros h w l k y x Hk Hy Hx. unfold pixel_of, padded. destruct (Nat.ltb_spec k (length l)) as [L|L].
  - rewrite nth_error_app1 by lia. reflexivity.
  - rewrite nth_error_app2 by lia.
    rewrite nth_error_repeat by lia. unfold pixel. rewrite nth_error_repeat by lia. apply nth_error_repeat; lia.
Qed.
Lemma beside_len : forall h (row : list (@image P)), length (beside h row) = h.
Proof. intros. unfold beside. rewrite map_length, seq_length. reflexivity. Qed.
Lemma beside_row : forall h w (row : list (@image P)) y, y < h -> (forall i, In i row -> shaped h w i) ->
  nth_error (beside h row) y = Some (flat_map (fun i => nth y i []) row).
Proof.
  intros h w row y Hy H. unfold beside. rewrite (map_nth_error (fun y => flat_map (fun i => nth y i []) row) y (seq 0 h) (d := y)); [reflexivity|].
  rewrite (nth_error_nth' _ 0) by (rewrite seq_length; lia). rewrite seq_nth by lia. reflexivity.
Qed.
Lemma row_len : forall h w (i : @image P) y, shaped h w i -> y < h -> length (nth y i []) = w.
Proof. intros h w i y [A B] Hy. apply B. apply nth_In. lia. Qed.
Lemma tile_generic : forall h w H W (L : list (@image P)), length L = H * W -> (forall i, In i L -> shaped h w i) -> 0 < h -> 0 < w ->
  shaped (H * h) (W * w) (flat_map (beside h) (rows_of H W L)) /\
  forall y x, y < H * h -> x < W * w ->
    pixel (flat_map (beside h) (rows_of H W L)) y x = pixel_of L ((y / h) * W + x / w) (y mod h) (x mod w).
Proof.
  intros h w H W L PL Hs Hh Hw.
  assert (Hrow : forall r, In r (rows_of H W L) -> forall i, In i r -> shaped h w i).
  { intros r Hr i Hi. apply Hs. eapply rows_in; eauto. }
  assert (Hbl : forall a, In a (rows_of H W L) -> length (beside h a) = h) by (intros; apply beside_len).
  split.
  - split.
    + rewrite (flat_len _ h) by exact Hbl. rewrite rows_len. reflexivity.
    + intros r Hr. apply in_flat_map in Hr. destruct Hr as [row [Hrw Hr]].
      unfold beside in Hr. apply in_map_iff in Hr. destruct Hr as [y [<- Hy]]. apply in_seq in Hy.
      rewrite (flat_len _ w); [|intros i Hi; apply (row_len h); [eapply Hrow; eauto|lia]].
      destruct (In_nth_error _ _ Hrw) as [j Hj].
      assert (Hjl : j < H) by (rewrite <- (rows_len H W L); apply nth_error_Some; congruence).
      rewrite rows_nth in Hj by exact Hjl. injection Hj as <-. rewrite firstn_length, skipn_length, PL.
      assert ((j + 1) * W <= H * W) by (apply Nat.mul_le_mono_r; lia). rewrite Nat.min_l by lia. reflexivity.
  - intros y x Hy Hx. unfold pixel. rewrite (flat_nth _ h) by auto.
    assert (Hyh : y / h < H) by (apply Nat.div_lt_upper_bound; lia).
    assert (Hym : y mod h < h) by (apply Nat.mod_upper_bound; lia).
    assert (Hxw : x / w < W) by (apply Nat.div_lt_upper_bound; lia).
    pose proof (rows_nth H W L (y / h) Hyh) as HR. rewrite HR.
    assert (HI : In (firstn W (skipn (y / h * W) L)) (rows_of H W L)) by (eapply nth_error_In; exact HR).
    rewrite (beside_row h w); [|exact Hym|intros i Hi; eapply Hrow; eauto].
    rewrite (flat_nth _ w); [|exact Hw|intros i Hi; apply (row_len h); [eapply Hrow; eauto|exact Hym]].
    rewrite nth_firstn. destruct (Nat.ltb_spec (x / w) W); [|lia]. rewrite nth_skipn.
    unfold pixel_of. unfold image in *. destruct (nth_error L (y / h * W + x / w)) as [i|] eqn:E; [|reflexivity].
    unfold pixel. assert (Si : shaped h w i) by (eapply Hs; eapply nth_error_In; exact E).
    rewrite (nth_error_nth' i [] (n := y mod h)) by (destruct Si; lia). reflexivity.
Qed.
Lemma tile_pixel : forall h w l, 0 < length l -> (forall i, In i l -> shaped h w i) -> 0 < h -> 0 < w ->
  let H := new_height (length l) in let W := new_width (length l) in
  shaped (H * h) (W * w) (tile blank h w l) /\
  forall y x, y < H * h -> x < W * w ->
    pixel (tile blank h w l) y x = let k := (y / h) * W + x / w in if k <? length l then pixel_of l k (y mod h) (x mod w) else Some blank.
Proof.
  intros h w l Hn Hs Hh Hw H W.
  destruct (tile_generic h w H W (padded blank h w l) (padded_len h w l Hn)) as [A B]; auto.
  { intros i Hi. eapply padded_in; [exact Hs|exact Hi]. }
  split; [exact A|]. intros y x Hy Hx. unfold tile. etransitivity; [apply B; assumption|].
  apply padded_pixel; try (apply Nat.mod_upper_bound; lia).
  assert (y / h < H) by (apply Nat.div_lt_upper_bound; lia). assert (x / w < W) by (apply Nat.div_lt_upper_bound; lia).
  assert ((y / h + 1) * W <= H * W) by (apply Nat.mul_le_mono_r; lia). change (new_height (length l) * new_width (length l)) with (H * W). lia.
Qed.
Lemma tile_images_iff : forall l, (exists t, tile_images blank l = Some t) <-> l <> [] /\ exists h w, forall i, In i l -> shaped h w i.
Proof.
  intros l. split.
  - intros [t Ht]. destruct l as [|i l]; [discriminate|]. split; [discriminate|]. unfold tile_images in Ht.
    destruct (forallb _ _) eqn:E in Ht; [|discriminate]. rewrite forallb_forall in E. eexists _, _. intros j Hj. apply of_shape_iff. apply E. exact Hj.
  - intros [Hl [h [w Hs]]]. destruct l as [|i l]; [contradiction|]. unfold tile_images.
    destruct (Hs i (or_introl eq_refl)) as [A B].
    replace (forallb _ (i :: l)) with true; [eauto|]. symmetry. apply forallb_forall. intros j Hj. apply of_shape_iff.
    destruct (Hs j Hj) as [C D]. split; [congruence|]. intros r Hr.
    destruct i as [|r0 i]; [cbn in A; destruct j; [contradiction|cbn in C; congruence]|]. rewrite (B r0) by (left; reflexivity). apply D. exact Hr.
Qed.
Lemma tile_images_eq : forall l h w, l <> [] -> 0 < h -> (forall i, In i l -> shaped h w i) -> tile_images blank l = Some (tile blank h w l).
Proof.
  intros l h w Hl Hh Hs. destruct (proj2 (tile_images_iff l) (conj Hl (ex_intro _ h (ex_intro _ w Hs)))) as [t Ht]. rewrite Ht.
  destruct l as [|i l]; [contradiction|]. unfold tile_images in Ht. destruct (forallb _ _) in Ht; [|discriminate]. injection Ht as <-.
  destruct (Hs i (or_introl eq_refl)) as [A B]. destruct i as [|r0 i]; [cbn in A; lia|]. rewrite A. rewrite (B r0) by (left; reflexivity). reflexivity.
Qed.
Lemma tiled : forall l h w t, tile_images blank l = Some t -> (forall i, In i l -> shaped h w i) -> 0 < h -> 0 < w ->
  let H := new_height (length l) in let W := new_width (length l) in
  shaped (H * h) (W * w) t /\
  forall y x, y < H * h -> x < W * w -> pixel t y x = let k := (y / h) * W + x / w in if k <? length l then pixel_of l k (y mod h) (x mod w) else Some blank.
Proof.
  intros l h w t Ht Hs Hh Hw. assert (Hl : l <> []) by (intros ->; discriminate).
  rewrite (tile_images_eq l h w) in Ht by auto. injection Ht as <-.
  apply tile_pixel; auto. destruct l; [contradiction|cbn; lia].
Qed.
(** Every pixel of every image is shown at one place. *)
Lemma shown : forall l h w t, tile_images blank l = Some t -> (forall i, In i l -> shaped h w i) -> 0 < h -> 0 < w ->
  forall k y x, k < length l -> y < h -> x < w ->
    pixel t ((k / new_width (length l)) * h + y) ((k mod new_width (length l)) * w + x) = pixel_of l k y x.
Proof.
  intros l h w t Ht Hs Hh Hw k y x Hk Hy Hx.
  assert (Hl : 0 < length l) by lia. destruct (grid (length l) Hl) as (A & B & C & D & E).
  set (W := new_width (length l)) in *. set (H := new_height (length l)) in *.
  destruct (tiled l h w t Ht Hs Hh Hw) as [_ T]. fold H W in T.
  assert (K1 : k / W < H) by (apply Nat.div_lt_upper_bound; nia).
  assert (K2 : k mod W < W) by (apply Nat.mod_upper_bound; lia).
  rewrite T by nia. cbn zeta.
  rewrite !Nat.div_add_l by lia. rewrite !(Nat.div_small y), !(Nat.div_small x) by lia. rewrite !Nat.add_0_r.
  replace (k / W * W + k mod W) with k by (rewrite (Nat.div_mod k W) at 1; lia).
  destruct (Nat.ltb_spec k (length l)); [|lia].
  rewrite !(Nat.add_comm (_ * h)), !(Nat.add_comm (_ * w)), !Nat.mod_add, !Nat.mod_small by lia. reflexivity.
Qed.
End Tile.
