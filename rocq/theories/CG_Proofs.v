From Coq Require Import List Arith Bool Reals Lra Lia.
From Verif Require Import CG_Model CG_Spec.
Import ListNotations.
Open Scope R_scope.

(** ** Vectors *)
Lemma map2_len : forall f a b, length a = length b -> length (map2 f a b) = length a.
Proof. induction a; destruct b; cbn; intros; try discriminate; auto. Qed.
Lemma add_len : forall n a b, length a = n -> length b = n -> length (add a b) = n.
Proof. intros. unfold add. rewrite map2_len; congruence. Qed.
Lemma sub_len : forall n a b, length a = n -> length b = n -> length (sub a b) = n.
Proof. intros. unfold sub. rewrite map2_len; congruence. Qed.
Lemma scale_len : forall n c a, length a = n -> length (scale c a) = n.
Proof. intros. unfold scale. now rewrite map_length. Qed.
Lemma zeros_len : forall n, length (zeros n) = n.
Proof. intros. apply repeat_length. Qed.
Lemma nth_map2 : forall f i a b, f 0 0 = 0 -> length a = length b -> nth i (map2 f a b) 0 = f (nth i a 0) (nth i b 0).
Proof. intros f i a. revert i. induction a as [|x a IH]; destruct b as [|y b]; cbn; intros E L; try discriminate. destruct i; now rewrite E. destruct i; auto. Qed.
Lemma nth_add : forall i a b, length a = length b -> nth i (add a b) 0 = nth i a 0 + nth i b 0.
Proof. intros. unfold add. rewrite nth_map2; auto. lra. Qed.
Lemma nth_sub : forall i a b, length a = length b -> nth i (sub a b) 0 = nth i a 0 - nth i b 0.
Proof. intros. unfold sub. rewrite nth_map2; auto. lra. Qed.
Lemma nth_scale : forall i c a, nth i (scale c a) 0 = c * nth i a 0.
Proof. intros i c a. revert i. induction a as [|x a IH]; destruct i; cbn; auto; lra. Qed.
Lemma nth_zeros : forall i n, nth i (zeros n) 0 = 0.
Proof. intros. unfold zeros. revert i. induction n; destruct i; cbn; auto. Qed.
Lemma vext : forall a b : vec, length a = length b -> (forall i, nth i a 0 = nth i b 0) -> a = b.
Proof.
  induction a as [|x a IH]; destruct b as [|y b]; cbn; intros L E; try discriminate; auto.
  f_equal. exact (E 0%nat). apply IH. lia. intro i. exact (E (S i)).
Qed.
Lemma dot_sym : forall a b, dot a b = dot b a.
Proof. induction a as [|x a IH]; destruct b as [|y b]; cbn; auto. rewrite IH. ring. Qed.
Lemma dot_add_l : forall a b c, length a = length b -> dot (add a b) c = dot a c + dot b c.
Proof. induction a as [|x a IH]; destruct b as [|y b]; destruct c as [|z c]; cbn; intros; try discriminate; try lra. fold (add a b). rewrite IH by lia. ring. Qed.
Lemma dot_sub_l : forall a b c, length a = length b -> dot (sub a b) c = dot a c - dot b c.
Proof. induction a as [|x a IH]; destruct b as [|y b]; destruct c as [|z c]; cbn; intros; try discriminate; try lra. fold (sub a b). rewrite IH by lia. ring. Qed.
Lemma dot_scale_l : forall k a c, dot (scale k a) c = k * dot a c.
Proof. induction a as [|x a IH]; destruct c as [|z c]; cbn; intros; try lra. fold (scale k a). rewrite IH. ring. Qed.
Lemma dot_add_r : forall a b c, length a = length b -> dot c (add a b) = dot c a + dot c b.
Proof. intros. rewrite dot_sym, dot_add_l, (dot_sym a), (dot_sym b); auto. Qed.
Lemma dot_sub_r : forall a b c, length a = length b -> dot c (sub a b) = dot c a - dot c b.
Proof. intros. rewrite dot_sym, dot_sub_l, (dot_sym a), (dot_sym b); auto. Qed.
Lemma dot_scale_r : forall k a c, dot c (scale k a) = k * dot c a.
Proof. intros. now rewrite dot_sym, dot_scale_l, (dot_sym a). Qed.
Lemma dot_zeros_l : forall n a, dot (zeros n) a = 0.
Proof. unfold zeros. induction n; destruct a; cbn; auto. rewrite IHn. ring. Qed.
Lemma dot_zeros_r : forall n a, dot a (zeros n) = 0.
Proof. intros. rewrite dot_sym. apply dot_zeros_l. Qed.
Lemma dot_nonneg : forall a, 0 <= dot a a.
Proof. induction a as [|x a IH]; cbn. lra. pose proof (Rle_0_sqr x). unfold Rsqr in *. lra. Qed.
Lemma dot_zero : forall a, dot a a = 0 -> a = zeros (length a).
Proof.
  induction a as [|x a IH]; cbn; auto. intro E. pose proof (dot_nonneg a). pose proof (Rle_0_sqr x) as Hx. unfold Rsqr in Hx.
  assert (x * x = 0) by lra. assert (dot a a = 0) by lra. unfold zeros in *. cbn. rewrite <- IH by auto. f_equal. destruct (Rmult_integral _ _ H0); auto.
Qed.
Lemma dot_pos : forall n a, length a = n -> a <> zeros n -> 0 < dot a a.
Proof. intros n a <- N. destruct (dot_nonneg a) as [H|H]; auto. exfalso. apply N. apply dot_zero. auto. Qed.

#[export] Hint Resolve add_len sub_len scale_len zeros_len : len.

(** ** At most n orthogonal vectors of n numbers that are not zero *)
Fixpoint proj (v : nat -> vec) (x : vec) (n k : nat) : vec :=
  match k with O => zeros n | S k' => add (proj v x n k') (scale (dot x (v k') / dot (v k') (v k')) (v k')) end.
Fixpoint bsum (v : nat -> vec) (x : vec) (k : nat) : R := match k with O => 0 | S k' => bsum v x k' + dot x (v k') * dot x (v k') / dot (v k') (v k') end.
Section Bessel.
  Variables (n : nat) (v : nat -> vec).
  Hypothesis Hlen : forall i, length (v i) = n.
  Lemma proj_len : forall x k, length (proj v x n k) = n.
  Proof. induction k; cbn; auto with len. Qed.
  Lemma proj_orth : forall k x j, (forall i, (i < k)%nat -> dot (v i) (v j) = 0) -> dot (proj v x n k) (v j) = 0.
  Proof.
    induction k as [|k IH]; cbn; intros x j H. apply dot_zeros_l.
    rewrite dot_add_l by (rewrite proj_len, (scale_len n); auto). rewrite IH by auto. rewrite dot_scale_l, H by lia. ring.
  Qed.
  Lemma bessel : forall k x, (forall i, (i < k)%nat -> 0 < dot (v i) (v i)) -> (forall i j, (i < j < k)%nat -> dot (v i) (v j) = 0) ->
    dot x (proj v x n k) = bsum v x k /\ dot (proj v x n k) (proj v x n k) = bsum v x k.
  Proof.
    induction k as [|k IH]; cbn; intros x P O. rewrite dot_zeros_l, dot_zeros_r. auto.
    destruct (IH x) as [E1 E2]; [intros; apply P; lia|intros; apply O; lia|].
    assert (L : length (proj v x n k) = length (scale (dot x (v k) / dot (v k) (v k)) (v k))) by (rewrite proj_len, (scale_len n); auto).
    assert (Z : dot (proj v x n k) (v k) = 0) by (apply proj_orth; intros; apply O; lia).
    pose proof (P k ltac:(lia)).
    split.
    - rewrite dot_add_r by auto. rewrite E1, dot_scale_r. field. lra.
    - rewrite dot_add_l, !dot_add_r by auto. rewrite E2, !dot_scale_l, !dot_scale_r, Z, (dot_sym (v k) (proj v x n k)), Z. field. lra.
  Qed.
  Lemma bessel_le : forall k x, length x = n -> (forall i, (i < k)%nat -> 0 < dot (v i) (v i)) -> (forall i j, (i < j < k)%nat -> dot (v i) (v j) = 0) ->
    bsum v x k <= dot x x.
  Proof.
    intros k x L P O. destruct (bessel k x P O) as [E1 E2]. pose proof (dot_nonneg (sub x (proj v x n k))) as H.
    assert (L2 : length x = length (proj v x n k)) by (now rewrite proj_len).
    rewrite dot_sub_l, !dot_sub_r in H by auto. rewrite (dot_sym (proj v x n k) x), E1, E2 in H. lra.
  Qed.
End Bessel.
Definition unit_vec (n i : nat) : vec := map (fun j => if (j =? i)%nat then 1 else 0) (seq 0 n).
Lemma unit_len : forall n i, length (unit_vec n i) = n.
Proof. intros. unfold unit_vec. now rewrite map_length, seq_length. Qed.
Lemma dot_unit_seq : forall l s i, (s <= i)%nat -> dot (map (fun j => if (j =? i)%nat then 1 else 0) (seq s (length l))) l = nth (i - s) l 0.
Proof.
  induction l as [|x l IH]; cbn [length seq map dot]; intros s i H. now destruct (i - s)%nat.
  destruct (Nat.eqb_spec s i) as [->|N].
  - rewrite Nat.sub_diag. cbn [nth].
    assert (Z : forall l s, (i < s)%nat -> dot (map (fun j => if (j =? i)%nat then 1 else 0) (seq s (length l))) l = 0).
    { clear. induction l as [|y l IH]; cbn; intros; auto. destruct (Nat.eqb_spec s i). lia. rewrite IH by lia. ring. }
    rewrite Z by lia. ring.
  - rewrite IH by lia. replace (i - s)%nat with (S (i - S s)) by lia. cbn [nth]. ring.
Qed.
Lemma dot_unit : forall n i l, length l = n -> dot (unit_vec n i) l = nth i l 0.
Proof. intros n i l <-. unfold unit_vec. rewrite dot_unit_seq by lia. now rewrite Nat.sub_0_r. Qed.
(** Sums over coordinates. *)
Fixpoint csum (f : nat -> R) (n : nat) : R := match n with O => 0 | S m => csum f m + f m end.
Lemma csum_ext : forall n f g, (forall i, (i < n)%nat -> f i = g i) -> csum f n = csum g n.
Proof. induction n; cbn; intros; auto. rewrite (IHn f g), H; auto. Qed.
Lemma csum_le : forall n f c, (forall i, (i < n)%nat -> f i <= c) -> csum f n <= INR n * c.
Proof. induction n; intros f c H. cbn. lra. cbn [csum]. rewrite S_INR. pose proof (IHn f c ltac:(auto)). pose proof (H n ltac:(lia)). lra. Qed.
Lemma csum_add : forall n f g, csum (fun i => f i + g i) n = csum f n + csum g n.
Proof. induction n; cbn; intros. ring. rewrite IHn. ring. Qed.
Lemma csum_div : forall n f c, csum (fun i => f i / c) n = csum f n / c.
Proof. induction n; cbn; intros. unfold Rdiv. ring. rewrite IHn. unfold Rdiv. ring. Qed.
Lemma csum_zero : forall n, csum (fun _ => 0) n = 0.
Proof. induction n; cbn; auto. rewrite IHn. ring. Qed.
Lemma csum_shift : forall n f, csum f (S n) = f O + csum (fun i => f (S i)) n.
Proof. induction n; intros. cbn. ring. cbn [csum] in *. rewrite IHn. ring. Qed.
Lemma csum_dot : forall l, csum (fun i => nth i l 0 * nth i l 0) (length l) = dot l l.
Proof. induction l as [|x l IH]. reflexivity. cbn [length]. rewrite csum_shift. cbn [nth dot]. now rewrite IH. Qed.

Lemma orthogonal_bound : forall n (v : nat -> vec) k, (forall i, length (v i) = n) -> (forall i, (i < k)%nat -> 0 < dot (v i) (v i)) ->
  (forall i j, (i < j < k)%nat -> dot (v i) (v j) = 0) -> (k <= n)%nat.
Proof.
  intros n v k L P O.
  assert (S1 : csum (fun i => bsum v (unit_vec n i) k) n = INR k).
  { clear O. induction k as [|k IH]. cbn [bsum INR]. apply csum_zero.
    cbn [bsum]. rewrite csum_add, IH by auto. rewrite csum_div. rewrite S_INR. f_equal.
    rewrite (csum_ext n _ (fun i => nth i (v k) 0 * nth i (v k) 0)) by (intros; rewrite dot_unit; auto).
    rewrite <- (L k). rewrite csum_dot. pose proof (P k ltac:(lia)). field. lra. }
  assert (S2 : csum (fun i => bsum v (unit_vec n i) k) n <= INR n * 1).
  { apply csum_le. intros i Hi. eapply Rle_trans. apply (bessel_le n v); auto. apply unit_len.
    rewrite dot_unit by apply unit_len. unfold unit_vec. rewrite (nth_indep _ 0 (if (0 =? i)%nat then 1 else 0)) by (now rewrite map_length, seq_length).
    rewrite (map_nth (fun j => if (j =? i)%nat then 1 else 0)). destruct (_ =? i)%nat; lra. }
  rewrite S1 in S2. apply INR_le. lra.
Qed.

(** ** The iteration *)
Section Iterate.
  Variables (n : nat) (A : vec -> vec) (b : vec).
  Hypothesis HA : spd n A.
  Hypothesis Hb : length b = n.
  Fixpoint st (k : nat) : vec * vec * vec :=
    match k with
    | O => (zeros n, b, b)
    | S k' =>
        let '(x, r, p) := st k' in
        let v := dot r r / dot p (A p) in
        let r' := sub r (scale v (A p)) in
        (add x (scale v p), r', add r' (scale (dot r' r' / dot r r) p))
    end.
  Definition xk k := fst (fst (st k)).
  Definition rk k := snd (fst (st k)).
  Definition pk k := snd (st k).
  Definition vk k := dot (rk k) (rk k) / dot (pk k) (A (pk k)).
  Definition mk k := dot (rk (S k)) (rk (S k)) / dot (rk k) (rk k).
  Lemma xk_S : forall k, xk (S k) = add (xk k) (scale (vk k) (pk k)).
  Proof. intro k. unfold xk, vk, rk, pk. cbn [st]. now destruct (st k) as [[x r] p]. Qed.
  Lemma rk_S : forall k, rk (S k) = sub (rk k) (scale (vk k) (A (pk k))).
  Proof. intro k. unfold vk, rk, pk. cbn [st]. now destruct (st k) as [[x r] p]. Qed.
  Lemma pk_S : forall k, pk (S k) = add (rk (S k)) (scale (mk k) (pk k)).
  Proof. intro k. unfold mk, rk, pk. cbn [st]. now destruct (st k) as [[x r] p]. Qed.
  Lemma lens : forall k, length (xk k) = n /\ length (rk k) = n /\ length (pk k) = n.
  Proof.
    induction k as [|k [IH1 [IH2 IH3]]]. unfold xk, rk, pk. cbn. auto with len.
    rewrite pk_S. rewrite rk_S. rewrite xk_S. pose proof (spd_len _ _ HA (pk k) IH3). auto 8 with len.
  Qed.
  Lemma xl k : length (xk k) = n. Proof. apply lens. Qed.
  Lemma rl k : length (rk k) = n. Proof. apply lens. Qed.
  Lemma pl k : length (pk k) = n. Proof. apply lens. Qed.
  Lemma Al x : length x = n -> length (A x) = n. Proof. apply (spd_len _ _ HA). Qed.
  Hint Resolve xl rl pl Al : len.
  Ltac ln := repeat match goal with |- length ?a = length ?b => transitivity n; [|symmetry] end; auto 8 with len.

  (** The residual is b - A x. *)
  Lemma A_zeros : A (zeros n) = zeros n.
  Proof.
    assert (E : zeros n = scale 0 (zeros n)). { apply vext. ln. intro i. rewrite nth_scale, !nth_zeros. ring. }
    rewrite E at 1. rewrite (spd_scale _ _ HA) by ln. apply vext. ln. intro i. rewrite nth_scale, nth_zeros. ring.
  Qed.
  Lemma residual : forall k, rk k = sub b (A (xk k)).
  Proof.
    induction k as [|k IH].
    - unfold rk, xk. cbn. rewrite A_zeros. apply vext. ln. intro i. rewrite nth_sub by ln. rewrite nth_zeros. ring.
    - rewrite rk_S, IH, xk_S, (spd_add _ _ HA), (spd_scale _ _ HA) by ln.
      apply vext. ln. intro i. repeat (rewrite nth_sub by ln). rewrite nth_add by ln. ring.
  Qed.

  (** Orthogonality as long as the residual is not zero. *)
  Definition alive k := forall i, (i < k)%nat -> rk i <> zeros n.
  Definition inv k := (forall i j, (i < j <= k)%nat -> dot (rk i) (rk j) = 0 /\ dot (pk i) (A (pk j)) = 0 /\ dot (pk i) (rk j) = 0).
  Lemma p_r : forall k, inv k -> dot (pk k) (rk k) = dot (rk k) (rk k).
  Proof.
    intros [|k] I. reflexivity. rewrite pk_S, dot_add_l by ln. rewrite dot_scale_l. destruct (I k (S k)) as [_ [_ ->]]; auto. ring.
  Qed.
  Lemma r_p : forall k, rk k = match k with O => pk O | S j => sub (pk (S j)) (scale (mk j) (pk j)) end.
  Proof. intros [|j]. reflexivity. rewrite pk_S. apply vext. ln. intro i. rewrite nth_sub by ln. rewrite nth_add by ln. ring. Qed.
  Lemma rr_pos : forall k, rk k <> zeros n -> 0 < dot (rk k) (rk k).
  Proof. intros. apply (dot_pos n); auto with len. Qed.
  Lemma pAp_pos : forall k, inv k -> rk k <> zeros n -> 0 < dot (pk k) (A (pk k)).
  Proof.
    intros k I N. apply (spd_pos _ _ HA). ln. intro E. pose proof (p_r k I) as H. rewrite E, dot_zeros_l in H. pose proof (rr_pos k N). lra.
  Qed.
  Lemma v_pos : forall k, inv k -> rk k <> zeros n -> 0 < vk k.
  Proof. intros. unfold vk. apply Rdiv_lt_0_compat. now apply rr_pos. now apply pAp_pos. Qed.
  Lemma A_p : forall k w, inv k -> rk k <> zeros n -> length w = n -> dot w (A (pk k)) = (dot w (rk k) - dot w (rk (S k))) / vk k.
  Proof. intros k w I N L. pose proof (v_pos k I N). rewrite rk_S, dot_sub_r, dot_scale_r by ln. field. lra. Qed.
  Lemma p_sym : forall i j, dot (pk i) (A (pk j)) = dot (pk j) (A (pk i)).
  Proof. intros. rewrite <- (spd_sym _ _ HA) by ln. apply dot_sym. Qed.
  Lemma inv_all : forall k, alive k -> inv k.
  Proof.
    induction k as [|k IH]; intros N. intros i j H; lia.
    assert (I : inv k) by (apply IH; intros i Hi; apply N; lia).
    assert (Nk : rk k <> zeros n) by (apply N; lia).
    pose proof (rr_pos k Nk) as RP. pose proof (pAp_pos k I Nk) as PP. pose proof (v_pos k I Nk) as VP.
    assert (pos : forall i, (i <= k)%nat -> inv i) by (intros i Hi a c H; apply I; lia).
    (* r_i . r_{k+1} *)
    assert (R1 : forall i, (i <= k)%nat -> dot (rk i) (rk (S k)) = 0).
    { intros i Hi. rewrite rk_S, dot_sub_r, dot_scale_r by ln.
      destruct (Nat.eq_dec i k) as [->|Ni].
      - assert (E : dot (rk k) (A (pk k)) = dot (pk k) (A (pk k))).
        { rewrite (r_p k). destruct k as [|j]; auto. rewrite dot_sub_l, dot_scale_l by ln. destruct (I j (S j)) as [_ [-> _]]; auto. ring. }
        rewrite E. unfold vk. field. lra.
      - destruct (I i k) as [-> _]; [lia|].
        assert (E : dot (rk i) (A (pk k)) = 0).
        { rewrite (r_p i). destruct i as [|j]. apply I; lia. rewrite dot_sub_l, dot_scale_l by ln.
          destruct (I j k) as [_ [-> _]]; [lia|]. destruct (I (S j) k) as [_ [-> _]]; [lia|]. ring. }
        rewrite E. ring. }
    (* p_i . r_{k+1} *)
    assert (R3 : forall i, (i <= k)%nat -> dot (pk i) (rk (S k)) = 0).
    { intros i Hi. rewrite rk_S, dot_sub_r, dot_scale_r by ln. destruct (Nat.eq_dec i k) as [->|Ni].
      - rewrite p_r by auto. unfold vk. field. lra.
      - destruct (I i k) as [_ [-> ->]]; [lia|]. ring. }
    (* p_i . A p_{k+1} *)
    assert (R2 : forall i, (i <= k)%nat -> dot (pk i) (A (pk (S k))) = 0).
    { intros i Hi. rewrite p_sym, pk_S, dot_add_l, dot_scale_l by ln.
      rewrite (A_p i (rk (S k))); [|auto|apply N; lia|ln].
      rewrite (dot_sym (rk (S k)) (rk i)), R1 by lia.
      destruct (Nat.eq_dec i k) as [->|Ni].
      - unfold mk, vk. field. lra.
      - rewrite (dot_sym (rk (S k)) (rk (S i))), R1 by lia. rewrite p_sym. destruct (I i k) as [_ [-> _]]; [lia|]. pose proof (v_pos i (pos i ltac:(lia)) (N i ltac:(lia))). field. lra. }
    intros i j H. destruct (Nat.eq_dec j (S k)) as [->|Nj]. split; [|split]; [apply R1|apply R2|apply R3]; lia. apply I. lia.
  Qed.

  (** Some residual of the first n + 1 is zero. *)
  Lemma zero_residual : exists k, (k <= n)%nat /\ rk k = zeros n.
  Proof.
    assert (D : forall m, alive (S m) \/ exists k, (k <= m)%nat /\ rk k = zeros n).
    { induction m as [|m IH].
      - destruct (list_eq_dec Req_EM_T (rk 0) (zeros n)). right; eauto. left. intros i Hi. now replace i with 0%nat by lia.
      - destruct IH as [IH|[k [Hk E]]]; [|right; exists k; split; auto; lia].
        destruct (list_eq_dec Req_EM_T (rk (S m)) (zeros n)) as [E|N]. right; exists (S m); auto.
        left. intros i Hi. destruct (Nat.eq_dec i (S m)) as [->|]; auto. apply IH. lia. }
    specialize (D n). destruct D as [D|D]; auto. exfalso.
    assert (I : inv n) by (apply inv_all; intros i Hi; apply D; lia).
    assert (S n <= n)%nat; [|lia].
    apply (orthogonal_bound n rk). apply rl. intros i Hi. apply rr_pos, D. lia. intros i j H. apply I. lia.
  Qed.

  (** A vector orthogonal to the directions is orthogonal to what they span. *)
  Lemma poly_len : forall c, length (poly A b c) = n.
  Proof. induction c; cbn; rewrite ?Hb; auto with len. Qed.
  Hint Resolve poly_len : len.
  Lemma orth_poly : forall c k w, alive k -> (length c <= k)%nat -> length w = n -> (forall i, (i < length c)%nat -> dot w (pk i) = 0) -> dot w (poly A b c) = 0.
  Proof.
    induction c as [|c0 c IH]; intros k w N L Lw H; cbn [poly length] in *. apply dot_zeros_r.
    rewrite dot_add_r, dot_scale_r by ln. assert (H0 : dot w b = 0) by (apply (H 0%nat); lia). rewrite H0. clear H0.
    rewrite <- (spd_sym _ _ HA) by ln. rewrite (IH k); auto; try lia; [ring|ln|].
    assert (I : inv k) by now apply inv_all.
    intros i Hi. rewrite (spd_sym _ _ HA) by ln.
    assert (Rz : forall j, (j <= length c)%nat -> dot w (rk j) = 0).
    { intros j Hj. rewrite r_p. destruct j as [|j]. apply H. lia. rewrite dot_sub_r, dot_scale_r by ln. rewrite !H by lia. ring. }
    rewrite (A_p i w); [|intros a d Hd; apply I; lia|apply N; lia|auto]. rewrite !Rz by lia. unfold Rdiv. ring.
  Qed.

  (** The iterate lies in the Krylov space. *)
  Lemma kry_zero : forall k, krylov A b k (zeros n).
  Proof.
    induction k as [|k [c [L E]]]. exists []. cbn. rewrite Hb. auto.
    exists (0 :: c). split. cbn. lia. cbn. rewrite <- E, A_zeros. apply vext. ln. intro i. rewrite nth_add, nth_scale, nth_zeros by ln. ring.
  Qed.
  Lemma kry_add : forall k y z, krylov A b k y -> krylov A b k z -> krylov A b k (add y z).
  Proof.
    intros k y z [c [Lc ->]] [d [Ld ->]]. exists (add c d). split. now apply add_len.
    revert c d Lc Ld. induction k as [|k IH]; intros [|c0 c] [|d0 d] Lc Ld; try discriminate.
    - change (add (zeros (length b)) (zeros (length b)) = zeros (length b)). rewrite Hb. apply vext. ln. intro i. rewrite nth_add, nth_zeros by ln. ring.
    - change (poly A b (add (c0 :: c) (d0 :: d))) with (add (scale (c0 + d0) b) (A (poly A b (add c d)))). cbn [poly]. rewrite <- (IH c d) by (cbn in *; lia). rewrite (spd_add _ _ HA) by ln.
      apply vext. ln. intro i. repeat (rewrite nth_add by ln). rewrite !nth_scale. ring.
  Qed.
  Lemma kry_scale : forall k a y, krylov A b k y -> krylov A b k (scale a y).
  Proof.
    intros k a y [c [Lc ->]]. exists (scale a c). split. now apply scale_len.
    clear Lc. induction c as [|c0 c IH].
    - change (scale a (zeros (length b)) = zeros (length b)). rewrite Hb. apply vext. ln. intro i. rewrite nth_scale, nth_zeros. ring.
    - change (poly A b (scale a (c0 :: c))) with (add (scale (a * c0) b) (A (poly A b (scale a c)))). cbn [poly]. rewrite <- IH. rewrite (spd_scale _ _ HA) by ln.
      apply vext. ln. intro i. rewrite nth_scale. repeat (rewrite nth_add by ln). rewrite !nth_scale. ring.
  Qed.
  Lemma kry_A : forall k y, krylov A b k y -> krylov A b (S k) (A y).
  Proof.
    intros k y [c [Lc ->]]. exists (0 :: c). split. cbn. lia. cbn [poly]. apply vext. ln. intro i. rewrite nth_add, nth_scale by ln. ring.
  Qed.
  Lemma kry_S : forall k y, krylov A b k y -> krylov A b (S k) y.
  Proof.
    intros k y [c [Lc ->]]. exists (c ++ [0]). split. rewrite app_length. cbn. lia. clear Lc.
    induction c as [|c0 c IH].
    - cbn. rewrite Hb, A_zeros. apply vext. ln. intro i. rewrite nth_add, nth_scale, nth_zeros by ln. ring.
    - cbn [poly app]. now rewrite <- IH.
  Qed.
  Lemma kry_sub : forall k y z, length y = n -> length z = n -> krylov A b k y -> krylov A b k z -> krylov A b k (sub y z).
  Proof.
    intros k y z Ly Lz H1 H2. replace (sub y z) with (add y (scale (-1) z)). apply kry_add; auto. now apply kry_scale.
    apply vext. ln. intro i. rewrite nth_add, nth_sub, nth_scale by ln. ring.
  Qed.
  Lemma kry_b : forall k, krylov A b (S k) b.
  Proof.
    induction k. exists [1]. split; auto. cbn. rewrite Hb, A_zeros. apply vext. ln. intro i. rewrite nth_add, nth_scale, nth_zeros by ln. ring.
    now apply kry_S.
  Qed.
  Lemma iterate_krylov : forall k, krylov A b k (xk k) /\ krylov A b (S k) (rk k) /\ krylov A b (S k) (pk k).
  Proof.
    induction k as [|k [X [R P]]]. split; [apply kry_zero|]. split; apply (kry_b 0).
    assert (R' : krylov A b (S (S k)) (rk (S k))).
    { rewrite rk_S. apply kry_sub; try ln. now apply kry_S. apply kry_scale. now apply kry_A. }
    split; [|split]; auto.
    - rewrite xk_S. apply kry_add. now apply kry_S. now apply kry_scale.
    - rewrite pk_S. apply kry_add; auto. apply kry_scale. now apply kry_S.
  Qed.
  (** The iterate is the best vector of its Krylov space. *)
  Lemma optimal : forall k y, alive k -> krylov A b k y -> energy A b (xk k) <= energy A b y.
  Proof.
    intros k y N Ky. assert (I : inv k) by now apply inv_all.
    destruct (iterate_krylov k) as [Kx _].
    assert (O : forall z, krylov A b k z -> dot (rk k) z = 0).
    { intros z [c [Lc ->]]. apply (orth_poly c k); auto; try lia. ln. intros i Hi. rewrite dot_sym. apply I. lia. }
    assert (Ly : length y = n). { destruct Ky as [c [_ ->]]. ln. }
    pose proof (O y Ky) as Oy. pose proof (O _ Kx) as Ox. rewrite residual, dot_sub_l in Oy, Ox by ln.
    set (x := xk k) in *. assert (Lx : length x = n) by (unfold x; ln).
    assert (P : 0 <= dot (sub y x) (A (sub y x))).
    { destruct (list_eq_dec Req_EM_T (sub y x) (zeros n)) as [->|Nz]. rewrite dot_zeros_l. lra. left. apply (spd_pos _ _ HA); auto. ln. }
    assert (E : A (sub y x) = sub (A y) (A x)).
    { replace (sub y x) with (add y (scale (-1) x)). rewrite (spd_add _ _ HA), (spd_scale _ _ HA) by ln.
      all: apply vext; [ln|intro i; rewrite nth_add, nth_sub, nth_scale by ln; ring]. }
    rewrite E, dot_sub_l, !dot_sub_r in P by ln.
    pose proof (spd_sym _ _ HA x y Lx Ly) as Sxy. rewrite (dot_sym y (A x)) in P. rewrite (dot_sym (A x) x) in Ox. unfold energy. lra.
  Qed.

  (** ** The loop *)
  Lemma loop_spec : forall fuel k tol, 0 < tol -> alive (S k) -> (forall i, (1 <= i <= k)%nat -> tol <= dot (rk i) (rk i)) ->
    exists j, (k <= j <= k + fuel)%nat /\ alive j /\ (forall i, (1 <= i < j)%nat -> tol <= dot (rk i) (rk i)) /\
      loop A fuel tol (xk k) (rk k) (Some (pk k)) (dot (rk k) (rk k)) = (Vec (xk j), (j - k)%nat) /\ ((j < k + fuel)%nat -> dot (rk j) (rk j) < tol).
  Proof.
    induction fuel as [|fuel IH]; intros k tol T N Hg.
    - exists k. cbn. rewrite Nat.sub_diag. split; [lia|]. split. intros i Hi; apply N; lia. split. intros; apply Hg; lia. split; auto. lia.
    - assert (I : inv k) by (apply inv_all; intros i Hi; apply N; lia). assert (Nk : rk k <> zeros n) by (apply N; lia).
      pose proof (pAp_pos k I Nk). pose proof (rr_pos k Nk). cbn [loop].
      destruct (Req_EM_T (dot (pk k) (A (pk k))) 0) as [E|_]; [lra|].
      destruct (Req_EM_T (dot (rk k) (rk k)) 0) as [E|_]; [lra|].
      fold (vk k). rewrite <- xk_S, <- rk_S. fold (mk k). rewrite <- pk_S.
      destruct (Rlt_dec (dot (rk (S k)) (rk (S k))) tol) as [Lt|Ge].
      + exists (S k). replace (S k - k)%nat with 1%nat by lia. split; [lia|]. split; auto. split. intros; apply Hg; lia. auto.
      + destruct (IH (S k) tol T) as [j [Hj [Aj [Gj [E Lt]]]]].
        { intros i Hi. destruct (Nat.eq_dec i (S k)) as [->|]; [|apply N; lia]. intro Z. apply Ge. rewrite Z, dot_zeros_l. auto. }
        { intros i Hi. destruct (Nat.eq_dec i (S k)) as [->|]; [lra|apply Hg; lia]. }
        rewrite E. exists j. split; [lia|]. split; auto. split; auto. split. f_equal. lia. intro. apply Lt. lia.
  Qed.
  Lemma cg_spec : forall iters verbose tol, b <> zeros n -> 0 < tol -> (verbose = true -> iters <> O) ->
    exists j, (j <= iters)%nat /\ alive j /\ (forall i, (1 <= i < j)%nat -> tol <= dot (rk i) (rk i)) /\
      conjugate_gradient A b iters verbose tol = (Vec (xk j), j) /\ ((j < iters)%nat -> dot (rk j) (rk j) < tol).
  Proof.
    intros iters verbose tol Nb T V. unfold conjugate_gradient.
    destruct (loop_spec iters 0 tol T) as [j [Hj [Aj [Gj [E Lt]]]]].
    { intros i Hi. now replace i with 0%nat by lia. }
    { intros; lia. }
    exists j. split; [lia|]. split; auto. split; auto. split; [|auto].
    rewrite Nat.sub_0_r in E. change (xk 0) with (zeros n) in E. change (rk 0) with b in E. change (pk 0) with b in E. rewrite Hb.
    destruct verbose; cbn; auto. destruct (Nat.eqb_spec iters 0) as [Z|]; auto. exfalso. now apply V.
  Qed.
End Iterate.

(** ** What a user sees *)
Lemma gap_rk : forall n A b, spd n A -> length b = n -> forall k, gap2 A b (xk n A b k) = dot (rk n A b k) (rk n A b k).
Proof. intros. unfold gap2. now rewrite <- (residual n A b). Qed.

Lemma cg_solves : forall n A b iters tol verbose, spd n A -> length b = n -> b <> zeros n -> 0 < tol -> (n <= iters)%nat ->
  exists x k, conjugate_gradient A b iters verbose tol = (Vec x, k) /\ length x = n /\ (1 <= k <= n)%nat /\ gap2 A b x < tol.
Proof.
  intros n A b iters tol verbose HA Hb Nb T Hn.
  assert (n <> 0)%nat. { intros ->. apply Nb. destruct b; [reflexivity|discriminate]. }
  destruct (cg_spec n A b HA Hb iters verbose tol Nb T) as [j [Hj [Aj [Gj [E Lt]]]]]. lia.
  destruct (zero_residual n A b HA Hb) as [k [Hk Z]].
  assert (j <= n)%nat.
  { destruct (le_lt_dec j n); auto. exfalso. apply (Aj k); auto. lia. }
  assert (Rj : dot (rk n A b j) (rk n A b j) < tol).
  { destruct (le_lt_dec iters j) as [H1|H1]; auto. replace j with n in * by lia.
    destruct (Nat.eq_dec k n) as [->|]. rewrite Z, dot_zeros_l. auto. exfalso. apply (Aj k); auto. lia. }
  assert (j <> 0)%nat.
  { intros ->. assert (0 < iters)%nat by lia. revert E. unfold conjugate_gradient. destruct iters as [|it]; [lia|]. rewrite andb_false_r. cbn [loop].
    destruct (Req_EM_T (dot b (A b)) 0); [discriminate|]. destruct (Rlt_dec _ _); [discriminate|]. destruct (loop _ _ _ _ _ _ _). discriminate. }
  exists (xk n A b j), j. split; auto. split. now apply xl. split; [lia|]. now rewrite gap_rk.
Qed.

Lemma cg_iterate : forall n A b iters tol verbose, spd n A -> length b = n -> b <> zeros n -> 0 < tol -> (verbose = true -> iters <> O) ->
  exists x k, conjugate_gradient A b iters verbose tol = (Vec x, k) /\ (k <= iters)%nat /\ ((k < iters)%nat -> gap2 A b x < tol) /\
    krylov A b k x /\ (forall y, krylov A b k y -> energy A b x <= energy A b y).
Proof.
  intros n A b iters tol verbose HA Hb Nb T V.
  destruct (cg_spec n A b HA Hb iters verbose tol Nb T V) as [j [Hj [Aj [Gj [E Lt]]]]].
  exists (xk n A b j), j. split; auto. split; auto. split. rewrite gap_rk; auto. split. apply (iterate_krylov n A b HA Hb).
  intros y Ky. now apply (optimal n A b HA Hb).
Qed.

(** More iterations never increase the energy. *)
Lemma kry_mono : forall n A b k j y, spd n A -> length b = n -> (k <= j)%nat -> krylov A b k y -> krylov A b j y.
Proof. intros n A b k j y HA Hb H. induction H; auto. intro. eapply kry_S; eauto. Qed.
Lemma cg_monotone : forall n A b i1 i2 tol x1 x2 k1 k2, spd n A -> length b = n -> b <> zeros n -> 0 < tol -> (i1 <= i2)%nat ->
  conjugate_gradient A b i1 false tol = (Vec x1, k1) -> conjugate_gradient A b i2 false tol = (Vec x2, k2) -> energy A b x2 <= energy A b x1.
Proof.
  intros n A b i1 i2 tol x1 x2 k1 k2 HA Hb Nb T Hi E1 E2.
  destruct (cg_spec n A b HA Hb i1 false tol Nb T) as [j1 [Hj1 [Aj1 [Gj1 [F1 L1]]]]]; [discriminate|].
  destruct (cg_spec n A b HA Hb i2 false tol Nb T) as [j2 [Hj2 [Aj2 [Gj2 [F2 L2]]]]]; [discriminate|].
  rewrite F1 in E1. injection E1 as <- <-. rewrite F2 in E2. injection E2 as <- <-.
  apply (optimal n A b HA Hb); auto. apply (kry_mono n A b j1); auto. 2: apply (iterate_krylov n A b HA Hb).
  destruct (le_lt_dec j1 j2) as [|C]; auto. exfalso.
  assert (Lt : dot (rk n A b j2) (rk n A b j2) < tol) by (apply L2; lia).
  destruct j2 as [|j2].
  - (* no iteration was made although one was allowed *)
    assert (i2 <> 0)%nat by lia. unfold conjugate_gradient in F2. cbn [andb] in F2. destruct i2 as [|i2]; [lia|]. cbn [loop] in F2.
    destruct (Req_EM_T (dot b (A b)) 0); [discriminate|]. destruct (Rlt_dec _ _); [discriminate|]. destruct (loop _ _ _ _ _ _ _). discriminate.
  - pose proof (Gj1 (S j2) ltac:(lia)). lra.
Qed.

(** b = 0. *)
Lemma cg_zero : forall n A iters tol verbose, spd n A -> iters <> O -> fst (conjugate_gradient A (zeros n) iters verbose tol) = NaN.
Proof.
  intros n A iters tol verbose HA Hi. unfold conjugate_gradient. destruct iters as [|it]; [lia|]. rewrite andb_false_r. cbn [loop].
  rewrite dot_zeros_l. destruct (Req_EM_T 0 0); [reflexivity|lra].
Qed.
(** A tolerance of 0. *)
Lemma loop_nan : forall fuel n A b k tol, spd n A -> length b = n -> tol <= 0 -> alive n A b (S k) ->
  (exists m, (k < m < k + fuel)%nat /\ rk n A b m = zeros n) ->
  fst (loop A fuel tol (xk n A b k) (rk n A b k) (Some (pk n A b k)) (dot (rk n A b k) (rk n A b k))) = NaN.
Proof.
  induction fuel as [|fuel IH]; intros n A b k tol HA Hb T N [m [Hm Z]]; [lia|].
  assert (I : inv n A b k) by (apply inv_all; auto; intros i Hi; apply N; lia). assert (Nk : rk n A b k <> zeros n) by (apply N; lia).
  pose proof (pAp_pos n A b HA Hb k I Nk). pose proof (rr_pos n A b HA Hb k Nk). cbn [loop].
  destruct (Req_EM_T (dot (pk n A b k) (A (pk n A b k))) 0) as [E|_]; [lra|].
  destruct (Req_EM_T (dot (rk n A b k) (rk n A b k)) 0) as [E|_]; [lra|].
  change (dot (rk n A b k) (rk n A b k) / dot (pk n A b k) (A (pk n A b k))) with (vk n A b k). rewrite <- xk_S, <- rk_S.
  change (dot (rk n A b (S k)) (rk n A b (S k)) / dot (rk n A b k) (rk n A b k)) with (mk n A b k). rewrite <- pk_S.
  destruct (Rlt_dec (dot (rk n A b (S k)) (rk n A b (S k))) tol) as [Lt|Ge].
  { pose proof (dot_nonneg (rk n A b (S k))). lra. }
  destruct (list_eq_dec Req_EM_T (rk n A b (S k)) (zeros n)) as [E|Ne].
  - (* the next division is 0 / 0 *)
    assert (Pz : pk n A b (S k) = zeros n).
    { rewrite pk_S, E. unfold mk. rewrite E, dot_zeros_l. apply vext. rewrite zeros_len. apply add_len; auto with len. apply scale_len. now apply pl.
      intro i. rewrite nth_add, nth_scale, nth_zeros. unfold Rdiv. ring. rewrite zeros_len. symmetry. apply scale_len. now apply pl. }
    destruct fuel as [|fuel]; [lia|]. cbn [loop]. rewrite Pz, dot_zeros_l. destruct (Req_EM_T 0 0); [reflexivity|lra].
  - specialize (IH n A b (S k) tol HA Hb T). destruct (loop A fuel tol (xk n A b (S k)) _ _ _) as [a j] eqn:E. cbn in *. apply IH.
    + intros i Hi. destruct (Nat.eq_dec i (S k)) as [->|]; auto. apply N. lia.
    + exists m. split; auto. destruct (Nat.eq_dec m (S k)) as [->|]; [contradiction|lia].
Qed.
Lemma cg_no_tolerance : forall n A b iters tol verbose, spd n A -> length b = n -> tol <= 0 -> (n < iters)%nat ->
  fst (conjugate_gradient A b iters verbose tol) = NaN.
Proof.
  intros n A b iters tol verbose HA Hb T Hi.
  destruct (list_eq_dec Req_EM_T b (zeros n)) as [->|Nb]. apply cg_zero; auto; lia.
  unfold conjugate_gradient. replace (iters =? 0)%nat with false by (symmetry; apply Nat.eqb_neq; lia). rewrite andb_false_r, Hb.
  apply (loop_nan iters n A b 0 tol HA Hb T).
  - intros i Hi2. now replace i with 0%nat by lia.
  - destruct (zero_residual n A b HA Hb) as [k [Hk Z]]. exists k. split; auto. destruct k; [contradiction|lia].
Qed.
Lemma cg_no_iteration : forall A b tol, conjugate_gradient A b 0 false tol = (Vec (zeros (length b)), 0%nat) /\ conjugate_gradient A b 0 true tol = (Raise, 0%nat).
Proof. intros. split; reflexivity. Qed.
