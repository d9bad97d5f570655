(** Proofs about convolutional features. *)
From Coq Require Import Reals List Arith Bool Lia Lra.
From Verif Require Import CV_Model CV_Spec.
Import ListNotations.
Open Scope list_scope.
Open Scope nat_scope.

Lemma total_ext n f g : (forall i, i < n -> f i = g i) -> total n f = total n g.
Proof. induction n as [|n IH]; intros H; simpl; [reflexivity|]. rewrite IH by (intros; apply H; lia). rewrite H by lia. reflexivity. Qed.
Lemma relu_ge x : (0 <= relu x)%R.
Proof. apply Rmax_r. Qed.

(** ** One layer *)
Theorem conv_valid fmt n f fh fw s w b x : filter_size f = Returns (fh, fw) ->
  (fh <= hh x /\ fw <= ww x -> exists y, conv fmt false VALID n f s w b x = Returns y /\ hh y = (hh x - fh) / s + 1 /\ ww y = (ww x - fw) / s + 1 /\ cc y = n /\
     forall i j k, i < hh y -> j < ww y -> s <> 0 -> px y i j k = (total fh (fun a => total fw (fun c => total (cc x) (fun ch => (px x (i * s + a) (j * s + c) ch * w a c ch k)%R))) + b k)%R) /\
  (~ (fh <= hh x /\ fw <= ww x) -> conv fmt false VALID n f s w b x = Raises).
Proof.
  intros F. unfold conv, out_size. rewrite F. unfold bind. split.
  - intros [A B]. apply Nat.leb_le in A as A'. apply Nat.leb_le in B as B'. rewrite A', B'. eexists. split; [destruct fmt; reflexivity|]. simpl. repeat split.
    intros i j k I J S. f_equal. unfold conv2d. apply total_ext. intros a Ha. apply total_ext. intros c Hc. apply total_ext. intros ch Hch. simpl. f_equal. unfold padded. simpl.
    assert (i * s <= hh x - fh) by (pose proof (Nat.mul_div_le (hh x - fh) s S); nia).
    assert (j * s <= ww x - fw) by (pose proof (Nat.mul_div_le (ww x - fw) s S); nia).
    replace (i * s + a <? hh x) with true by (symmetry; apply Nat.ltb_lt; lia). replace (j * s + c <? ww x) with true by (symmetry; apply Nat.ltb_lt; lia). simpl. now rewrite !Nat.sub_0_r.
  - intros H. destruct (fh <=? hh x) eqn:A; [|reflexivity]. destruct (fw <=? ww x) eqn:B; [|reflexivity]. exfalso. apply H. split; now apply Nat.leb_le.
Qed.
Theorem conv_filters fmt one pad n l s w b x : length l <> 2 -> conv fmt one pad n (inr l) s w b x = Raises.
Proof. destruct l as [|? [|? [|? ?]]]; simpl; intros H; try reflexivity. now elim H. Qed.
Lemma ceil_bounds s m : s <> 0 -> (m + s - 1) / s * s < m + s /\ m <= (m + s - 1) / s * s.
Proof. intros S. pose proof (Nat.div_mod (m + s - 1) s S). pose proof (Nat.mod_upper_bound (m + s - 1) s S). nia. Qed.
Theorem conv_same fmt n f s w b x : s <> 0 -> exists y, conv fmt false SAME n (inl f) s w b x = Returns y /\ cc y = n /\
  (hh y * s < hh x + s /\ hh x <= hh y * s) /\ (ww y * s < ww x + s /\ ww x <= ww y * s).
Proof.
  intros S. unfold conv, out_size. simpl. eexists. split; [destruct fmt; reflexivity|]. simpl. split; [reflexivity|]. split; apply ceil_bounds; exact S.
Qed.
Theorem bias_one_dim n f s w b x : f <= hh x -> f <= ww x -> let w' := (ww x - f) / s + 1 in
  (conv NCHW true VALID n (inl f) s w b x = Raises <-> w' <> n /\ n <> 1 /\ w' <> 1) /\
  (w' = n -> exists y z, conv NCHW true VALID n (inl f) s w b x = Returns y /\ conv NCHW false VALID n (inl f) s w (fun _ => 0%R) x = Returns z /\
     hh y = hh z /\ ww y = ww z /\ cc y = cc z /\ forall i j k, px y i j k = (px z i j k + b (if (n =? 1)%nat then 0%nat else j))%R).
Proof.
  intros H W w'. unfold conv, out_size, bind, filter_size. apply Nat.leb_le in H. apply Nat.leb_le in W. rewrite H, W. unfold add_bias. simpl. fold w'. split.
  - destruct (Nat.eqb_spec w' n) as [E|N]; simpl; [split; [discriminate|lia]|]. destruct (Nat.eqb_spec n 1) as [E|M]; simpl; [split; [discriminate|lia]|].
    destruct (Nat.eqb_spec w' 1); split; auto; try discriminate; lia.
  - intros E. rewrite E, Nat.eqb_refl. simpl. do 2 eexists. split; [reflexivity|]. split; [reflexivity|]. simpl. repeat split. intros i j k. now rewrite Rplus_0_r.
Qed.

Lemma layer_valid n f s w b x : s <> 0 -> f <= hh x -> f <= ww x -> exists y, layer n f s w b x = Returns y /\ hh y = (hh x - f) / s + 1 /\ ww y = (ww x - f) / s + 1 /\ cc y = n /\
  forall i j k, i < hh y -> j < ww y -> px y i j k = relu (total f (fun a => total f (fun c => total (cc x) (fun ch => (px x (i * s + a) (j * s + c) ch * w a c ch k)%R))) + b k)%R.
Proof.
  intros S A B. destruct (conv_valid NHWC n (inl f) f f s w b x eq_refl) as [G _]. destruct (G (conj A B)) as (y & E & H & W & C & P).
  unfold layer. rewrite E. simpl. eexists. split; [reflexivity|]. simpl. repeat split; auto. intros i j k I J. rewrite P by auto. reflexivity.
Qed.
Lemma layer_raises n f s w b x : ~ (f <= hh x /\ f <= ww x) -> layer n f s w b x = Raises.
Proof. intros H. destruct (conv_valid NHWC n (inl f) f f s w b x eq_refl) as [_ G]. unfold layer. rewrite (G H). reflexivity. Qed.
Lemma layer_inv n f s w b x y : layer n f s w b x = Returns y -> f <= hh x /\ f <= ww x.
Proof.
  intros H. destruct (le_dec f (hh x)), (le_dec f (ww x)); try (split; assumption); rewrite layer_raises in H; try discriminate; lia.
Qed.
(** The value at one place depends on a window. *)
Lemma layer_local n f s w b x x' y y' i j i' j' : s <> 0 -> layer n f s w b x = Returns y -> layer n f s w b x' = Returns y' -> cc x = cc x' ->
  i < hh y -> j < ww y -> i' < hh y' -> j' < ww y' ->
  (forall a c ch, a < f -> c < f -> ch < cc x -> px x (i * s + a) (j * s + c) ch = px x' (i' * s + a) (j' * s + c) ch) ->
  forall k, px y i j k = px y' i' j' k.
Proof.
  intros S E E' C I J I' J' H k. destruct (layer_inv _ _ _ _ _ _ _ E) as [A B]. destruct (layer_inv _ _ _ _ _ _ _ E') as [A' B'].
  destruct (layer_valid n f s w b x S A B) as (z & Z & _ & _ & _ & P). rewrite E in Z. injection Z as <-.
  destruct (layer_valid n f s w b x' S A' B') as (z & Z & _ & _ & _ & P'). rewrite E' in Z. injection Z as <-.
  rewrite P, P' by assumption. do 2 f_equal. apply total_ext. intros a Ha. apply total_ext. intros c Hc. rewrite <- C. apply total_ext. intros ch Hch. now rewrite H.
Qed.

(** ** The three layers *)
Lemma places_eq n : 36 <= n -> (((n - 8) / 4 + 1 - 4) / 2 + 1 - 3) / 1 + 1 = places n.
Proof.
  intros H. unfold places. rewrite Nat.div_1_r.
  assert (E : exists m, n = 36 + m) by (exists (n - 36); lia). destruct E as [m ->].
  replace (36 + m - 36) with m by lia. replace (36 + m - 8) with (m + 7 * 4) by lia. rewrite Nat.div_add by lia.
  replace (m / 4 + 7 + 1 - 4) with (m / 4 + 2 * 2) by lia. rewrite Nat.div_add by lia. rewrite Nat.div_div by lia. change (4 * 2) with 8. lia.
Qed.
Lemma layers_iff p x y : layers p x = Returns y -> 36 <= hh x /\ 36 <= ww x.
Proof.
  unfold layers, bind. destruct (layer 32 8 4 _ _ x) as [y1|] eqn:E1; [|discriminate]. destruct (layer 64 4 2 _ _ y1) as [y2|] eqn:E2; [|discriminate]. intros E3.
  destruct (layer_inv _ _ _ _ _ _ _ E1) as [A1 B1]. destruct (layer_inv _ _ _ _ _ _ _ E2) as [A2 B2]. destruct (layer_inv _ _ _ _ _ _ _ E3) as [A3 B3].
  destruct (layer_valid 32 8 4 (w1 p) (b1 p) x) as (z & Z & H1 & W1 & _); try lia. rewrite E1 in Z. injection Z as <-.
  destruct (layer_valid 64 4 2 (w2 p) (b2 p) y1) as (z & Z & H2 & W2 & _); try lia. rewrite E2 in Z. injection Z as <-.
  rewrite H1 in *. rewrite W1 in *.
  pose proof (Nat.div_mod ((hh x - 8) / 4 + 1 - 4) 2 ltac:(lia)). pose proof (Nat.div_mod (hh x - 8) 4 ltac:(lia)).
  pose proof (Nat.div_mod ((ww x - 8) / 4 + 1 - 4) 2 ltac:(lia)). pose proof (Nat.div_mod (ww x - 8) 4 ltac:(lia)). lia.
Qed.
Lemma layers_size p x : 36 <= hh x -> 36 <= ww x -> exists y, layers p x = Returns y /\ hh y = places (hh x) /\ ww y = places (ww x) /\ cc y = 64.
Proof.
  intros H W. unfold layers, bind.
  destruct (layer_valid 32 8 4 (w1 p) (b1 p) x) as (y1 & -> & H1 & W1 & _); try lia.
  pose proof (Nat.div_le_mono 28 (hh x - 8) 4 ltac:(lia) ltac:(lia)) as D1. pose proof (Nat.div_le_mono 28 (ww x - 8) 4 ltac:(lia) ltac:(lia)) as D2. change (28 / 4) with 7 in D1, D2.
  destruct (layer_valid 64 4 2 (w2 p) (b2 p) y1) as (y2 & -> & H2 & W2 & _); try lia.
  pose proof (Nat.div_le_mono 4 (hh y1 - 4) 2 ltac:(lia) ltac:(lia)) as D3. pose proof (Nat.div_le_mono 4 (ww y1 - 4) 2 ltac:(lia) ltac:(lia)) as D4. change (4 / 2) with 2 in D3, D4.
  destruct (layer_valid 64 3 1 (w3 p) (b3 p) y2) as (y3 & -> & H3 & W3 & C3 & _); try lia.
  exists y3. split; [reflexivity|]. rewrite H3, W3, H2, W2, H1, W1. rewrite !places_eq by assumption. auto.
Qed.
Lemma layers_step p x y : layers p x = Returns y -> exists y1 y2, layer 32 8 4 (w1 p) (b1 p) x = Returns y1 /\ layer 64 4 2 (w2 p) (b2 p) y1 = Returns y2 /\ layer 64 3 1 (w3 p) (b3 p) y2 = Returns y /\
  cc y1 = 32 /\ cc y2 = 64 /\ (forall i, i < hh y -> i + 2 < hh y2 /\ forall a, a < 3 -> 2 * (i + a) + 3 < hh y1) /\ (forall j, j < ww y -> j + 2 < ww y2 /\ forall a, a < 3 -> 2 * (j + a) + 3 < ww y1).
Proof.
  unfold layers, bind. destruct (layer 32 8 4 _ _ x) as [y1|] eqn:E1; [|discriminate]. destruct (layer 64 4 2 _ _ y1) as [y2|] eqn:E2; [|discriminate]. intros E3.
  destruct (layer_inv _ _ _ _ _ _ _ E1) as [A1 B1]. destruct (layer_inv _ _ _ _ _ _ _ E2) as [A2 B2]. destruct (layer_inv _ _ _ _ _ _ _ E3) as [A3 B3].
  destruct (layer_valid 32 8 4 (w1 p) (b1 p) x) as (z & Z & H1 & W1 & C1 & _); try lia. rewrite E1 in Z. injection Z as <-.
  destruct (layer_valid 64 4 2 (w2 p) (b2 p) y1) as (z & Z & H2 & W2 & C2 & _); try lia. rewrite E2 in Z. injection Z as <-.
  destruct (layer_valid 64 3 1 (w3 p) (b3 p) y2) as (z & Z & H3 & W3 & C3 & _); try lia. rewrite E3 in Z. injection Z as <-.
  exists y1, y2. rewrite Nat.div_1_r in H3, W3.
  pose proof (Nat.mul_div_le (hh y1 - 4) 2 ltac:(lia)). pose proof (Nat.mul_div_le (ww y1 - 4) 2 ltac:(lia)).
  split; [reflexivity|]. repeat split; auto; intros; lia.
Qed.
Theorem layers_local p x x' y y' i j i' j' : layers p x = Returns y -> layers p x' = Returns y' -> cc x = cc x' -> i < hh y -> j < ww y -> i' < hh y' -> j' < ww y' ->
  (forall a c ch, a < 36 -> c < 36 -> ch < cc x -> px x (8 * i + a) (8 * j + c) ch = px x' (8 * i' + a) (8 * j' + c) ch) -> forall k, px y i j k = px y' i' j' k.
Proof.
  intros E E' C I J I' J' H.
  destruct (layers_step p x y E) as (y1 & y2 & L1 & L2 & L3 & C1 & C2 & HI & HJ).
  destruct (layers_step p x' y' E') as (y1' & y2' & L1' & L2' & L3' & C1' & C2' & HI' & HJ').
  destruct (HI i I) as [I2 I1]. destruct (HJ j J) as [J2 J1]. destruct (HI' i' I') as [I2' I1']. destruct (HJ' j' J') as [J2' J1'].
  eapply (layer_local 64 3 1 (w3 p) (b3 p) y2 y2'); eauto; try congruence; try lia. intros a c ch Ha Hc _.
  specialize (I1 a Ha); specialize (J1 c Hc); specialize (I1' a Ha); specialize (J1' c Hc).
  eapply (layer_local 64 4 2 _ _ y1 y1'); eauto; try congruence; try lia. intros a2 c2 ch2 Ha2 Hc2 _.
  eapply (layer_local 32 8 4 _ _ x x'); eauto; try lia.
  intros a3 c3 ch3 Ha3 Hc3 Hch.
  replace (((i * 1 + a) * 2 + a2) * 4 + a3) with (8 * i + (8 * a + 4 * a2 + a3)) by lia. replace (((j * 1 + c) * 2 + c2) * 4 + c3) with (8 * j + (8 * c + 4 * c2 + c3)) by lia.
  replace (((i' * 1 + a) * 2 + a2) * 4 + a3) with (8 * i' + (8 * a + 4 * a2 + a3)) by lia. replace (((j' * 1 + c) * 2 + c2) * 4 + c3) with (8 * j' + (8 * c + 4 * c2 + c3)) by lia.
  apply H; auto; lia.
Qed.

(** ** nature_cnn *)
Theorem cnn_accepts p x : (exists v, nature_cnn p x = Returns v) <-> 36 <= hh x /\ 36 <= ww x.
Proof.
  unfold nature_cnn. split.
  - intros [v H]. destruct (layers p x) as [y|] eqn:E; [|discriminate]. exact (layers_iff p x y E).
  - intros [H W]. destruct (layers_size p x H W) as (y & -> & _). simpl. eauto.
Qed.
Theorem cnn_value p x : 36 <= hh x -> 36 <= ww x -> exists y v, layers p x = Returns y /\ hh y = places (hh x) /\ ww y = places (ww x) /\ cc y = 64 /\ nature_cnn p x = Returns v /\
  forall u, v u = relu (total (places (hh x) * places (ww x) * 64) (fun q => (px y (q / (places (ww x) * 64)) (q / 64 mod places (ww x)) (q mod 64) * wf p q u)%R) + bf p u)%R /\ (0 <= v u)%R.
Proof.
  intros H W. destruct (layers_size p x H W) as (y & E & A & B & C). exists y. unfold nature_cnn. rewrite E. unfold bind, flat.
  eexists. split; [reflexivity|]. split; [exact A|]. split; [exact B|]. split; [exact C|]. split; [reflexivity|]. intros u. rewrite A, B, C. split; [reflexivity|apply relu_ge].
Qed.
Lemma flat_index n m q : q < n * m * 64 -> m <> 0 -> q / (m * 64) < n /\ q / 64 mod m < m /\ q mod 64 < 64.
Proof.
  intros H M. split; [apply Nat.div_lt_upper_bound; nia|]. split; apply Nat.mod_upper_bound; lia.
Qed.
Theorem cnn_seen p x x' v v' : same_size x x' -> agree x x' 0 (seen (hh x)) 0 (seen (ww x)) -> nature_cnn p x = Returns v -> nature_cnn p x' = Returns v' -> forall u, v u = v' u.
Proof.
  intros (SH & SW & SC) A E E' u.
  assert (B : 36 <= hh x /\ 36 <= ww x) by (apply (cnn_accepts p); eauto). assert (B' : 36 <= hh x' /\ 36 <= ww x') by (apply (cnn_accepts p); eauto).
  destruct (cnn_value p x (proj1 B) (proj2 B)) as (y & z & L & H & W & C & Z & P). rewrite E in Z. injection Z as <-.
  destruct (cnn_value p x' (proj1 B') (proj2 B')) as (y' & z & L' & H' & W' & C' & Z & P'). rewrite E' in Z. injection Z as <-.
  destruct (P u) as [-> _]. destruct (P' u) as [-> _]. rewrite <- SH, <- SW. do 2 f_equal. apply total_ext. intros q Q. f_equal.
  assert (M : places (ww x) <> 0) by (unfold places; lia). destruct (flat_index _ _ _ Q M) as (Q1 & Q2 & Q3).
  apply (layers_local p x x' y y'); auto; try congruence.
  intros a c ch Ha Hc Hch. apply A; [| |exact Hch]; unfold seen, places in *; lia.
Qed.
Theorem cnn_shift p x y z h w di dj : h + 8 * di <= hh x -> w + 8 * dj <= ww x -> layers p x = Returns y -> layers p (window (8 * di) (8 * dj) h w x) = Returns z ->
  forall i j k, i < hh z -> j < ww z -> px z i j k = px y (i + di) (j + dj) k.
Proof.
  intros Hh Hw E E' i j k I J. pose proof (layers_iff _ _ _ E') as [A B]. pose proof (layers_iff _ _ _ E) as [A2 B2]. simpl in A, B.
  destruct (layers_size p (window (8 * di) (8 * dj) h w x) A B) as (z' & Z & H & W & _). rewrite E' in Z. injection Z as <-. simpl in H, W.
  destruct (layers_size p x A2 B2) as (y' & Y & H2 & W2 & _). rewrite E in Y. injection Y as <-.
  assert (G : forall m n d, 36 <= m -> m + 8 * d <= n -> places m + d <= places n).
  { intros m n d M D. unfold places. assert ((m - 36) / 8 + d <= (n - 36) / 8); [|lia]. rewrite <- Nat.div_add by lia. apply Nat.div_le_mono; lia. }
  pose proof (G h (hh x) di A Hh). pose proof (G w (ww x) dj B Hw).
  apply (layers_local p (window (8 * di) (8 * dj) h w x) x z y); auto; try lia.
  intros a c ch Ha Hc Hch. simpl. f_equal; lia.
Qed.
(** With SAME and stride 1 the filter is centred, where it does not pass the border. *)
Theorem conv_centred fmt n f w b x : 1 <= f -> exists y, conv fmt false SAME n (inl f) 1 w b x = Returns y /\ hh y = hh x /\ ww y = ww x /\ cc y = n /\
  forall i j k m, m = (f - 1) / 2 -> m <= i -> i + f <= hh x + m -> m <= j -> j + f <= ww x + m ->
    px y i j k = (total f (fun a => total f (fun c => total (cc x) (fun ch => (px x (i + a - m) (j + c - m) ch * w a c ch k)%R))) + b k)%R.
Proof.
  intros F. unfold conv, out_size, bind, filter_size. eexists. split; [destruct fmt; reflexivity|]. cbn [hh ww cc].
  split; [rewrite Nat.div_1_r; lia|]. split; [rewrite Nat.div_1_r; lia|]. split; [reflexivity|].
  intros i j k m M I1 I2 J1 J2.
  assert (D : forall q, m <= q -> forall t, q + f <= t + m -> before SAME t f 1 = m).
  { intros q Q t T. unfold before. rewrite Nat.div_1_r, M. f_equal. assert (m <= f - 1) by (rewrite M; apply Nat.div_le_upper_bound; lia). lia. }
  cbn [px]. f_equal. unfold conv2d. rewrite (D i I1 (hh x) I2), (D j J1 (ww x) J2).
  apply total_ext. intros a Ha. apply total_ext. intros c Hc. apply total_ext. intros ch Hch. f_equal. unfold padded.
  replace (m <=? i * 1 + a) with true by (symmetry; apply Nat.leb_le; lia). replace (i * 1 + a <? m + hh x) with true by (symmetry; apply Nat.ltb_lt; lia).
  replace (m <=? j * 1 + c) with true by (symmetry; apply Nat.leb_le; lia). replace (j * 1 + c <? m + ww x) with true by (symmetry; apply Nat.ltb_lt; lia).
  simpl. f_equal; lia.
Qed.
(** The features of the frames of one size all use the same number of weights; the sizes seen in games. *)
Theorem cnn_window p x x' y y' i j : same_size x x' -> layers p x = Returns y -> layers p x' = Returns y' -> i < places (hh x) -> j < places (ww x) ->
  agree x x' (8 * i) (8 * i + 36) (8 * j) (8 * j + 36) -> forall k, px y i j k = px y' i j k.
Proof.
  intros (SH & SW & SC) E E' I J A. pose proof (layers_iff _ _ _ E) as [B1 B2]. pose proof (layers_iff _ _ _ E') as [B1' B2'].
  destruct (layers_size p x B1 B2) as (z & Z & H & W & _). rewrite E in Z. injection Z as <-.
  destruct (layers_size p x' B1' B2') as (z & Z & H' & W' & _). rewrite E' in Z. injection Z as <-.
  apply (layers_local p x x' y y'); auto; try congruence. intros a c ch Ha Hc Hch. apply A; auto; lia.
Qed.
