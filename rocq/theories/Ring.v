(** Generic facts about a ring of size [s] (list + next index), shared by the
    proofs about the replay buffers.  No model definitions here. *)
From Coq Require Import List Arith Bool Lia Permutation.
From Verif Require Import Base BaseFacts.
Import ListNotations.
Open Scope nat_scope.

Section Ring.
  Context {A : Type}.

  Definition ring_write (st : list A) (nxt : nat) (d : A) : list A :=
    if length st <=? nxt then st ++ [d] else set_nth st nxt d.

  Definition ring_inv (s : nat) (all st : list A) (nxt : nat) : Prop :=
    let n := length all in
    length st = Nat.min n s /\ nxt = n mod s /\
    forall t, n - Nat.min n s <= t < n -> nth_error st (t mod s) = nth_error all t.

  Lemma ring_mod_distinct s a b : a < b -> b < a + s -> a mod s <> b mod s.
  Proof.
    intros H1 H2 E. assert (s <> 0) by lia.
    pose proof (Nat.div_mod a s H). pose proof (Nat.div_mod b s H).
    pose proof (Nat.mod_upper_bound a s H).
    assert (a / s = b / s \/ a / s < b / s \/ b / s < a / s) as [|[|]] by lia; nia.
  Qed.

  Lemma ring_step s all st nxt d : 1 <= s -> ring_inv s all st nxt ->
    ring_inv s (all ++ [d]) (ring_write st nxt d) ((nxt + 1) mod s).
  Proof.
    intros Hs (Hl & Hn & Hc). unfold ring_inv, ring_write. set (n := length all) in *.
    rewrite app_length. cbn [length]. fold n.
    destruct (Nat.lt_ge_cases n s) as [L|L].
    - assert (En : n mod s = n) by (apply Nat.mod_small; lia).
      rewrite Hl, Hn, En. rewrite Nat.min_l by lia.
      rewrite (proj2 (Nat.leb_le n n)) by lia.
      split; [rewrite app_length; simpl; lia|]. split; [reflexivity|].
      intros t Ht. rewrite (Nat.min_l (n + 1) s) in Ht by lia.
      rewrite (Nat.mod_small t s) by lia.
      destruct (Nat.eq_dec t n) as [->|].
      + rewrite !nth_error_app2 by (fold n; lia). fold n. rewrite Hl.
        rewrite Nat.min_l by lia. reflexivity.
      + rewrite !nth_error_app1 by (fold n; lia).
        rewrite <- (Hc t) by lia. now rewrite Nat.mod_small by lia.
    - assert (Hlt : n mod s < s) by (apply Nat.mod_upper_bound; lia).
      rewrite Hl, Hn, Nat.min_r by lia.
      rewrite (proj2 (Nat.leb_gt s (n mod s))) by lia.
      split; [rewrite length_set_nth; lia|]. split.
      { rewrite Nat.add_mod_idemp_l by lia. reflexivity. }
      intros t Ht. rewrite (Nat.min_r (n + 1) s) in Ht by lia.
      rewrite nth_error_set_nth, Hl, Nat.min_r by lia.
      destruct (Nat.eq_dec t n) as [->|Ht'].
      + rewrite Nat.eqb_refl. rewrite (proj2 (Nat.ltb_lt _ _) Hlt).
        rewrite nth_error_app2 by (fold n; lia). fold n. rewrite Nat.sub_diag. reflexivity.
      + destruct (Nat.eqb_spec (t mod s) (n mod s)) as [E|E].
        * exfalso. revert E. apply ring_mod_distinct; lia.
        * rewrite nth_error_app1 by (fold n; lia). apply Hc.
          rewrite Nat.min_r by lia. lia.
  Qed.

  Lemma ring_new s : ring_inv s [] [] 0.
  Proof.
    unfold ring_inv. simpl. split; [auto|]. split.
    - destruct s; auto. now rewrite Nat.mod_0_l.
    - intros t Ht. lia.
  Qed.

  Lemma perm_map_Some (l1 l2 : list A) :
    Permutation (map Some l1) (map Some l2) -> Permutation l1 l2.
  Proof.
    intros H. apply Permutation_map_inv in H. destruct H as (l3 & E & P).
    assert (l1 = l3).
    { clear P. revert l3 E. induction l1; destruct l3; simpl; intros; try discriminate; auto.
      injection E as -> E. f_equal; auto. }
    subst. now symmetry.
  Qed.

  Lemma nth_error_seq_all (l : list A) : forall off pre,
    length pre = off -> map (nth_error (pre ++ l)) (seq off (length l)) = map Some l.
  Proof.
    induction l as [|a l IH]; intros off pre H; simpl; auto.
    f_equal.
    - rewrite nth_error_app2 by lia. rewrite H, Nat.sub_diag. reflexivity.
    - specialize (IH (S off) (pre ++ [a])). rewrite <- app_assoc in IH. apply IH.
      rewrite app_length. simpl. lia.
  Qed.

  Lemma ring_perm s all st nxt : 1 <= s -> ring_inv s all st nxt ->
    Permutation st (skipn (length all - Nat.min (length all) s) all).
  Proof.
    intros Hs (Hl & Hn & Hc). set (n := length all) in *.
    set (k := Nat.min n s) in *.
    apply perm_map_Some.
    rewrite <- (nth_error_seq_all st 0 []) by reflexivity.
    assert (Hlk : length (skipn (n - k) all) = k) by (rewrite skipn_length; fold n; lia).
    rewrite <- (nth_error_seq_all (skipn (n - k) all) (n - k) (firstn (n - k) all)).
    2:{ rewrite firstn_length. fold n. lia. }
    rewrite firstn_skipn, Hlk. simpl app. rewrite Hl.
    assert (E : map (nth_error all) (seq (n - k) k) =
                map (nth_error st) (map (fun t => t mod s) (seq (n - k) k))).
    { rewrite map_map. apply map_ext_in. intros t Ht. apply in_seq in Ht.
      symmetry. apply Hc. fold k. lia. }
    rewrite E. apply Permutation_map.
    apply Permutation_sym, NoDup_Permutation_bis.
    - assert (G : forall off, NoDup (map (fun t => t mod s) (seq off k))).
      { assert (Hk : k <= s) by lia. clearbody k. clear - Hk Hs.
        induction k as [|k IH]; intros off; simpl; constructor.
        - intro H. apply in_map_iff in H. destruct H as (t & E & Ht). apply in_seq in Ht.
          revert E. apply not_eq_sym. apply ring_mod_distinct; lia.
        - apply IH; lia. }
      apply G.
    - rewrite map_length, !seq_length. lia.
    - intros x Hx. apply in_map_iff in Hx. destruct Hx as (t & <- & Ht). apply in_seq in Ht.
      apply in_seq. split; [lia|].
      destruct (Nat.lt_ge_cases n s).
      + assert (k = n) by lia. rewrite Nat.mod_small by lia. lia.
      + assert (k = s) by lia. rewrite H0. apply Nat.mod_upper_bound. lia.
  Qed.
End Ring.
