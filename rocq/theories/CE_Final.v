(** The CEC functions: lower bounds, values at the shift, totality, composition (C81, C82). *)
From Coq Require Import List Bool Arith Reals Lia Lra Psatz.
From Verif Require Import BM_Model BM_Spec BM_Proofs BM_Final BM_Schwefel CE_Model CE_Spec CE_Proofs.
Import ListNotations.
Open Scope R_scope.

(* ---------- look-ups ---------- *)
Lemma lookup_in {A} dims nx (a : A) : In nx dims -> lookup dims nx a = Some a.
Proof. intros H. unfold lookup. assert (E : existsb (Nat.eqb nx) dims = true) by (apply existsb_exists; exists nx; split; [exact H|apply Nat.eqb_refl]). rewrite E. reflexivity. Qed.
Lemma lookup_out {A} dims nx (a : A) : ~ In nx dims -> lookup dims nx a = None.
Proof. intros H. unfold lookup. destruct (existsb (Nat.eqb nx) dims) eqn:E; [|reflexivity]. apply existsb_exists in E. destruct E as (y & A1 & A2). apply Nat.eqb_eq in A2. subst. contradiction. Qed.
Lemma lookup_inv {A} dims nx (a b : A) : lookup dims nx a = Some b -> b = a /\ In nx dims.
Proof. unfold lookup. destruct (existsb (Nat.eqb nx) dims) eqn:E; [|discriminate]. intros H. injection H as <-. split; [reflexivity|]. apply existsb_exists in E. destruct E as (y & A1 & A2). apply Nat.eqb_eq in A2. subst. exact A1. Qed.
Lemma perm_rot nx : In nx perm_dims -> In nx rot_dims. Proof. cbn. tauto. Qed.
Lemma dims_b nx : In nx rot_dims -> (2 <= nx <= 100)%nat. Proof. cbn. lia. Qed.

(* ---------- f1 - f10 ---------- *)
Lemma simple_nn k : nonneg (simple_fun k).
Proof.
  do 10 (destruct k as [|k]; [cbn [simple_fun]; first [apply ms_nn|apply bent_cigar_nn|apply sdp_nn|apply bzak_nn|apply bros_nn|apply bras_nn|apply s7_nn|apply blev_nn]|]). cbn [simple_fun]. apply ms_nn.
Qed.
Lemma simple_tot k n : (2 <= n)%nat -> total_at (simple_fun k) n.
Proof.
  intros L. do 10 (destruct k as [|k]; [cbn [simple_fun]; first [apply ms_tot|apply bent_cigar_tot; lia|apply sdp_tot|apply bzak_tot|apply bros_tot|apply bras_tot|apply s7_tot; lia|apply blev_tot; lia]|]). cbn [simple_fun]. apply ms_tot.
Qed.
Lemma f_simple_low k m s x v x' : f_simple k m s x = Some (v, x') -> 100 * INR k <= v.
Proof.
  assert (G : obind (rotated m s x) (fun z => obind (simple_fun k z) (fun w => Some (w + 100 * INR k, x))) = Some (v, x') -> 100 * INR k <= v).
  { intros H. apply obind_Some in H. destruct H as (z & _ & H). apply obind_Some in H. destruct H as (w & A & H). injection H as <- _. apply simple_nn in A. lra. }
  destruct (Nat.eq_dec k 7) as [->|N7].
  { intros H. cbn [f_simple] in H. apply obind_Some in H. destruct H as (w & A & H). injection H as <- _. apply lun_nn in A. cbn. lra. }
  destruct (Nat.eq_dec k 8) as [->|N8].
  { intros H. cbn [f_simple] in H. apply obind_Some in H. destruct H as ([w y] & A & H). injection H as <- _. apply ncr_nn in A. cbn. lra. }
  do 9 (destruct k as [|k]; [try exact G; congruence|]). exact G.
Qed.
Lemma f_simple_kept k m s x v x' : k <> 8%nat -> f_simple k m s x = Some (v, x') -> x' = x.
Proof.
  intros N8. assert (G : obind (rotated m s x) (fun z => obind (simple_fun k z) (fun w => Some (w + 100 * INR k, x))) = Some (v, x') -> x' = x).
  { intros H. apply obind_Some in H. destruct H as (z & _ & H). apply obind_Some in H. destruct H as (w & A & H). congruence. }
  destruct (Nat.eq_dec k 7) as [->|N7].
  { intros H. cbn [f_simple] in H. apply obind_Some in H. destruct H as (w & A & H). congruence. }
  do 9 (destruct k as [|k]; [try exact G; congruence|]). exact G.
Qed.
Lemma ncr_some x s m n : square n m -> length s = n -> length x = n -> exists v, non_cont_rastrigin x s m = Some (v, map ncr_round (combine x s)).
Proof.
  intros Sq Ls Lx. unfold non_cont_rastrigin. rewrite Lx, Ls, Nat.eqb_refl. cbv zeta. assert (L : length (map ncr_round (combine x s)) = n) by (rewrite map_length, combine_length; lia).
  destruct (vsub_some (map ncr_round (combine x s)) s) as (d & -> & Ld); [congruence|]. cbn [obind]. destruct (matvec_some m (vscale (512 / 10000) d) n Sq) as (z & -> & _); [unfold vscale; rewrite map_length; congruence|]. cbn [obind]. eauto.
Qed.
Lemma f_simple_some k m s x n : (2 <= n)%nat -> square n m -> length s = n -> length x = n -> exists vx, f_simple k m s x = Some vx.
Proof.
  intros L Sq Ls Lx. assert (G : exists vx, obind (rotated m s x) (fun z => obind (simple_fun k z) (fun w => Some (w + 100 * INR k, x))) = Some vx).
  { destruct (rotated_some m s x n Sq Ls Lx) as (z & -> & Lz). cbn [obind]. destruct (simple_tot k n L z Lz) as (w & ->). cbn [obind]. eauto. }
  destruct (Nat.eq_dec k 7) as [->|N7].
  { cbn [f_simple]. destruct (lun_some x s (Some m) n L Lx Ls) as (v & ->); [intros m' E; congruence|]. cbn [obind]. eauto. }
  destruct (Nat.eq_dec k 8) as [->|N8].
  { cbn [f_simple]. destruct (ncr_some x s m n Sq Ls Lx) as (v & ->). cbn [obind]. eauto. }
  do 9 (destruct k as [|k]; [try exact G; congruence|]). exact G.
Qed.

(* rounding *)
Lemma ncr_move x s : Rabs (ncr_round (x, s) - x) <= 1 / 4.
Proof.
  unfold ncr_round. cbn [fst snd]. cbv zeta. destruct (Rlt_dec (1 / 2) (Rabs (x - s))); [|rewrite Rminus_diag_eq by reflexivity; rewrite Rabs_R0; lra].
  pose proof (rfloor_b (2 * (x - s) + 1 / 2)). apply Rabs_le. lra.
Qed.
Lemma ncr_idem x s : ncr_round (ncr_round (x, s), s) = ncr_round (x, s).
Proof.
  unfold ncr_round at 2 3. cbn [fst snd]. cbv zeta. destruct (Rlt_dec (1 / 2) (Rabs (x - s))) as [H|H].
  - unfold ncr_round. cbn [fst snd]. cbv zeta. set (r := rfloor (2 * (x - s) + 1 / 2)).
    assert (E : r = IZR (Int_part (2 * (x - s) + 1 / 2))) by reflexivity. clearbody r. match goal with |- context [Rlt_dec ?a ?b] => destruct (Rlt_dec a b) end; [|reflexivity]. rewrite (rfloor_is _ (Int_part (2 * (x - s) + 1 / 2))) by lra. lra.
  - unfold ncr_round. cbn [fst snd]. cbv zeta. destruct (Rlt_dec (1 / 2) (Rabs (x - s))); [contradiction|reflexivity].
Qed.
Lemma ncr_list x : forall s, length x = length s -> map ncr_round (combine (map ncr_round (combine x s)) s) = map ncr_round (combine x s).
Proof. induction x as [|a x IH]; intros [|b s] H; cbn [combine map length] in *; try discriminate; [reflexivity|]. rewrite ncr_idem, IH by lia. reflexivity. Qed.
Lemma ncr_self s : map ncr_round (combine s s) = s.
Proof. induction s as [|a s IH]; [reflexivity|]. cbn [combine map]. rewrite IH. f_equal. unfold ncr_round. cbn [fst snd]. cbv zeta. rewrite (Rminus_diag_eq a a) by reflexivity. rewrite Rabs_R0. destruct (Rlt_dec (1 / 2) 0); lra. Qed.
Lemma ncr_same x s m v x' : non_cont_rastrigin x s m = Some (v, x') -> non_cont_rastrigin x' s m = Some (v, x') /\ length x' = length x /\ x' = map ncr_round (combine x s).
Proof.
  intros H. unfold non_cont_rastrigin in H. destruct (Nat.eqb_spec (length x) (length s)) as [E|E]; [|discriminate]. cbv zeta in H. set (y := map ncr_round (combine x s)) in *. assert (L : length y = length x) by (unfold y; rewrite map_length, combine_length; lia).
  assert (Ex : x' = y). { apply obind_Some in H. destruct H as (d & _ & H). apply obind_Some in H. destruct H as (z & _ & H). congruence. }
  subst x'. split; [|auto]. unfold non_cont_rastrigin. rewrite L, E, Nat.eqb_refl. cbv zeta. assert (I : map ncr_round (combine y s) = y) by (apply ncr_list; exact E). rewrite I. exact H.
Qed.
Lemma ncr_at s m n : square n m -> length s = n -> non_cont_rastrigin s s m = Some (0, s).
Proof.
  intros Sq L. unfold non_cont_rastrigin. rewrite Nat.eqb_refl. cbv zeta. rewrite ncr_self, vsub_self, L. cbn [obind]. rewrite vscale_zero, (matvec_zero m n Sq). cbn [obind]. f_equal. f_equal. apply rsum_0. intros a H. apply in_repeat in H. subst. replace (2 * PI * 0) with 0 by ring. rewrite cos_0. lra.
Qed.
Lemma f_simple_at k m s n : (2 <= n)%nat -> (1 <= k <= 10)%nat -> k <> 9%nat -> k <> 10%nat -> square n m -> length s = n -> f_simple k m s s = Some (100 * INR k, s).
Proof.
  intros L Hk N9 N10 Sq Ls. assert (G : zero_at (simple_fun k) n -> obind (rotated m s s) (fun z => obind (simple_fun k z) (fun w => Some (w + 100 * INR k, s))) = Some (100 * INR k, s)).
  { intros Z. rewrite (rotated_self m s n Sq Ls). cbn [obind]. rewrite Z. cbn [obind]. f_equal. f_equal. lra. }
  destruct (Nat.eq_dec k 7) as [->|N7].
  { cbn [f_simple]. rewrite (lun_self s (Some m) n L Ls) by (intros m' E; congruence). cbn [obind]. f_equal. f_equal. cbn. lra. }
  destruct (Nat.eq_dec k 8) as [->|N8].
  { cbn [f_simple]. rewrite (ncr_at s m n Sq Ls). cbn [obind fst snd]. f_equal. f_equal. cbn. lra. }
  do 11 (destruct k as [|k]; [try lia; try (apply G; cbn [simple_fun]; first [apply bent_cigar_0; lia|apply sdp_0|apply bzak_0|apply bros_0|apply bras_0|apply s7_0; lia])|]). lia.
Qed.

(* ---------- f11 - f20 ---------- *)
Fixpoint part_lens (nx n : nat) (tenths : list nat) : list nat :=
  match tenths with
  | [] | [_] => [n]
  | t :: r => let k := ((t * nx + 9) / 10)%nat in Nat.min k n :: part_lens nx (n - k) r
  end.
Lemma split_lens nx ts : forall xs, map (@length R) (split_parts nx xs ts) = part_lens nx (length xs) ts.
Proof.
  induction ts as [|t r IH]; intros xs; [reflexivity|]. destruct r as [|t' r]; [reflexivity|]. cbn [split_parts part_lens map]. cbv zeta. rewrite firstn_length. f_equal. specialize (IH (skipn ((t * nx + 9) / 10) xs)). rewrite skipn_length in IH. exact IH.
Qed.
Lemma firstn_rep (a : R) k : forall n, firstn k (repeat a n) = repeat a (Nat.min k n). Proof. induction k; intros [|n]; cbn; congruence. Qed.
Lemma skipn_rep (a : R) k : forall n, skipn k (repeat a n) = repeat a (n - k). Proof. induction k; intros [|n]; cbn; auto. Qed.
Lemma split_zero nx ts : forall n, split_parts nx (repeat 0 n) ts = map (repeat 0) (part_lens nx n ts).
Proof.
  induction ts as [|t r IH]; intros n; [reflexivity|]. destruct r as [|t' r]; [reflexivity|]. cbn [split_parts part_lens map]. cbv zeta. rewrite firstn_rep, skipn_rep. f_equal. apply IH.
Qed.
Lemma shuffled_some x : forall q, Forall (fun i => (i < length x)%nat) q -> exists l, shuffled x q = Some l /\ length l = length q.
Proof.
  induction q as [|i q IH]; intros H; [exists []; auto|]. inversion H as [|? ? A B]; subst. destruct (IH B) as (l & E & Ll). cbn [shuffled]. destruct (nth_error x i) as [a|] eqn:Ea; [|apply nth_error_None in Ea; lia]. rewrite E. cbn. eexists. split; [reflexivity|]. cbn. congruence.
Qed.
Lemma shuffled_zero n : forall q, Forall (fun i => (i < n)%nat) q -> shuffled (repeat 0 n) q = Some (repeat 0 (length q)).
Proof.
  induction q as [|i q IH]; intros H; [reflexivity|]. inversion H as [|? ? A B]; subst. cbn [shuffled]. rewrite (IH B). destruct (nth_error (repeat 0 n) i) as [a|] eqn:Ea; [|apply nth_error_None in Ea; rewrite repeat_length in Ea; lia]. apply nth_error_In, in_repeat in Ea. subst. reflexivity.
Qed.
Lemma shuffled_len x : forall q l, shuffled x q = Some l -> length l = length q.
Proof. induction q as [|i q IH]; intros l H; cbn in H; [injection H as <-; reflexivity|]. apply obind_Some in H. destruct H as (a & _ & H). apply obind_Some in H. destruct H as (r & A & H). injection H as <-. cbn. f_equal. auto. Qed.
Lemma forall_firstn {A} (P : A -> Prop) k l : Forall P l -> Forall P (firstn k l).
Proof. rewrite !Forall_forall. intros H a Ha. apply H. rewrite <- (firstn_skipn k l). apply in_or_app. auto. Qed.
Lemma parts_some z q ts : indices (length z) q -> exists ps, shuffle_and_partition z q ts = Some ps.
Proof.
  intros (A & B). unfold shuffle_and_partition. destruct (Nat.ltb_spec (length q) (length z)) as [K|K]; [lia|]. destruct (shuffled_some z (firstn (length z) q)) as (l & -> & _); [apply forall_firstn; exact B|]. cbn. eauto.
Qed.
Lemma parts_lens z q ts ps : shuffle_and_partition z q ts = Some ps -> map (@length R) ps = part_lens (length z) (length z) ts.
Proof.
  unfold shuffle_and_partition. destruct (Nat.ltb_spec (length q) (length z)) as [K|K]; [discriminate|]. intros H. apply obind_Some in H. destruct H as (l & A & H). injection H as <-. rewrite split_lens. apply shuffled_len in A. rewrite A, firstn_length. f_equal. lia.
Qed.
Lemma parts_zero n q ts : indices n q -> shuffle_and_partition (repeat 0 n) q ts = Some (map (repeat 0) (part_lens n n ts)).
Proof.
  intros (A & B). unfold shuffle_and_partition. rewrite repeat_length. destruct (Nat.ltb_spec (length q) n) as [K|K]; [lia|]. rewrite shuffled_zero by (apply forall_firstn; exact B). cbn [obind]. rewrite firstn_length. replace (Nat.min n (length q)) with n by lia. rewrite split_zero. reflexivity.
Qed.
Lemma sum_parts_nn fs : Forall nonneg fs -> forall ps y, sum_parts fs ps = Some y -> 0 <= y.
Proof.
  induction fs as [|f fs IH]; intros F [|p ps] y H; cbn in H; try (injection H as <-; lra). inversion F as [|? ? A B]; subst. apply obind_Some in H. destruct H as (v & C & H). apply obind_Some in H. destruct H as (w & D & H). injection H as <-. apply A in C. apply (IH B) in D. lra.
Qed.
Lemma sum_parts_pos fs : Forall nonneg fs -> forall ps y i f p, sum_parts fs ps = Some y -> nth_error fs i = Some f -> nth_error ps i = Some p -> (forall v, f p = Some v -> 0 < v) -> 0 < y.
Proof.
  induction fs as [|f fs IH]; intros F [|p ps] y [|i] g q H E1 E2 P; try discriminate; cbn in H, E1, E2; inversion F as [|? ? A B]; subst; apply obind_Some in H; destruct H as (v & C & H); apply obind_Some in H; destruct H as (w & D & H); injection H as <-.
  - injection E1 as ->. injection E2 as ->. apply P in C. apply (sum_parts_nn fs B) in D. lra.
  - apply A in C. apply (IH B ps w i g q D E1 E2) in P. lra.
Qed.
Lemma sum_parts_tot fs : forall ps, Forall2 (fun f p => exists v, f p = Some v) fs ps -> exists y, sum_parts fs ps = Some y.
Proof. induction fs as [|f fs IH]; intros ps H; inversion H as [|? p ? ps' A B]; subst; cbn; [eauto|]. destruct A as (v & ->). destruct (IH _ B) as (w & ->). cbn. eauto. Qed.
Lemma tot_parts fs : forall ls, Forall2 total_at fs ls -> forall ps, map (@length R) ps = ls -> Forall2 (fun f p => exists v, f p = Some v) fs ps.
Proof. intros ls H. induction H as [|f l fs ls A B IH]; intros [|p ps] E; try discriminate; [constructor|]. cbn in E. injection E as E1 E2. constructor; [apply A; exact E1|apply IH; exact E2]. Qed.
Lemma sum_zero fs : forall ls, Forall2 zero_at fs ls -> sum_parts fs (map (repeat 0) ls) = Some 0.
Proof. induction fs as [|f fs IH]; intros ls H; inversion H as [|? l ? ls' A B]; subst; cbn; [reflexivity|]. rewrite A, (IH _ B). cbn. f_equal. lra. Qed.
Definition near_at (f : list R -> option R) (l : nat) : Prop := exists v, f (repeat 0 l) = Some v /\ v <= INR l * (2 / 10 ^ 5).
Lemma zero_near f l : zero_at f l -> near_at f l. Proof. intros H. exists 0. split; [exact H|]. pose proof (pos_INR l). lra. Qed.
Lemma sum_near fs : forall ls, Forall2 near_at fs ls -> exists v, sum_parts fs (map (repeat 0) ls) = Some v /\ v <= INR (list_sum ls) * (2 / 10 ^ 5).
Proof.
  induction fs as [|f fs IH]; intros ls H; inversion H as [|? l ? ls' A B]; subst; cbn [sum_parts map]; [exists 0; split; [reflexivity|cbn; lra]|]. destruct A as (v & -> & Hv). destruct (IH _ B) as (w & -> & Hw). cbn [obind]. eexists. split; [reflexivity|]. change (list_sum (l :: ls')) with (l + list_sum ls')%nat. rewrite plus_INR. lra.
Qed.

Ltac nn_tac := first [apply ms_nn|apply bent_cigar_nn|apply sdp_nn|apply bzak_nn|apply bros_nn|apply bras_nn|apply s7_nn|apply blev_nn|apply ell_nn|apply lun0_nn|apply back_nn|apply hgb_nn|apply f6_nn|apply katsuura_nn|apply egr_nn|apply discus_nn|apply wei_nn|apply hc_nn|apply bgri_nn].
Ltac tot_tac := first [apply ms_tot|apply bent_cigar_tot; lia|apply sdp_tot|apply bzak_tot|apply bros_tot|apply bras_tot|apply s7_tot; lia|apply blev_tot; lia|apply ell_tot; lia|apply lun0_tot; lia|apply back_tot; lia|apply hgb_tot; lia|apply f6_tot|apply katsuura_tot; lia|apply egr_tot|apply discus_tot; lia|apply wei_tot|apply hc_tot; lia|apply bgri_tot].
Ltac zero_tac := first [apply bent_cigar_0; lia|apply sdp_0|apply bzak_0|apply bros_0|apply bras_0|apply s7_0; lia|apply ell_0; lia|apply lun0_0; lia|apply back_0; lia|apply hgb_0; lia|apply f6_0|apply katsuura_0; lia|apply egr_0|apply discus_0; lia|apply wei_0|apply hc_0; lia|apply bgri_0].

Lemma hybrid_nn k : Forall nonneg (hybrid_funs k).
Proof. do 20 (destruct k as [|k]; [cbn [hybrid_funs]; repeat (apply Forall_cons; [nn_tac|]); apply Forall_nil|]). cbn [hybrid_funs]. repeat (apply Forall_cons; [nn_tac|]); apply Forall_nil. Qed.
Ltac parts_tac := match goal with |- context [part_lens ?n ?m ?t] => let l := eval vm_compute in (part_lens n m t) in change (part_lens n m t) with l end; cbn [hybrid_funs].
Ltac dims_tac k nx Hk Hn := 
  assert (C : In k (seq 11 10)) by (apply in_seq; lia); clear Hk; cbn [seq In] in C; cbn [perm_dims In] in Hn;
  destruct C as [<-|[<-|[<-|[<-|[<-|[<-|[<-|[<-|[<-|[<-|[]]]]]]]]]]]; destruct Hn as [<-|[<-|[<-|[<-|[]]]]].
Lemma hybrid_tot k nx : (11 <= k <= 20)%nat -> In nx perm_dims -> Forall2 total_at (hybrid_funs k) (part_lens nx nx (hybrid_parts k)).
Proof. intros Hk Hn. dims_tac k nx Hk Hn; parts_tac; repeat (apply Forall2_cons; [tot_tac|]); apply Forall2_nil. Qed.
Lemma hybrid_zero k nx : (11 <= k <= 20)%nat -> has_schwefel k = false -> In nx perm_dims -> Forall2 zero_at (hybrid_funs k) (part_lens nx nx (hybrid_parts k)).
Proof. intros Hk S Hn. dims_tac k nx Hk Hn; try (vm_compute in S; congruence); parts_tac; repeat (apply Forall2_cons; [zero_tac|]); apply Forall2_nil. Qed.
Lemma hybrid_near k nx : (11 <= k <= 20)%nat -> In nx perm_dims -> Forall2 near_at (hybrid_funs k) (part_lens nx nx (hybrid_parts k)).
Proof. intros Hk Hn. dims_tac k nx Hk Hn; parts_tac; repeat (apply Forall2_cons; [first [apply ms_0|apply zero_near; zero_tac]|]); apply Forall2_nil. Qed.
Lemma hybrid_sum k nx : (11 <= k <= 20)%nat -> In nx perm_dims -> list_sum (part_lens nx nx (hybrid_parts k)) = nx.
Proof. intros Hk Hn. dims_tac k nx Hk Hn; vm_compute; reflexivity. Qed.
Lemma hybrid_where k nx : (11 <= k <= 20)%nat -> has_schwefel k = true -> In nx perm_dims -> exists i l, nth_error (hybrid_funs k) i = Some modified_schwefel /\ nth_error (part_lens nx nx (hybrid_parts k)) i = Some l /\ (0 < l)%nat.
Proof.
  intros Hk S Hn. dims_tac k nx Hk Hn; try (vm_compute in S; congruence); parts_tac;
  first [exists 1%nat; eexists; split; [reflexivity|]; split; [reflexivity|lia]|exists 3%nat; eexists; split; [reflexivity|]; split; [reflexivity|lia]|exists 4%nat; eexists; split; [reflexivity|]; split; [reflexivity|lia]].
Qed.

Lemma f_hybrid_low k m s q x v : f_hybrid k m s q x = Some v -> 100 * INR k <= v.
Proof.
  intros H. apply obind_Some in H. destruct H as (z & _ & H). apply obind_Some in H. destruct H as (ps & _ & H). apply obind_Some in H. destruct H as (y & A & H). injection H as <-. apply (sum_parts_nn _ (hybrid_nn k)) in A. lra.
Qed.
Lemma f_hybrid_pos k m s q x v : (11 <= k <= 20)%nat -> has_schwefel k = true -> In (length x) perm_dims -> f_hybrid k m s q x = Some v -> 100 * INR k < v.
Proof.
  intros Hk S Hn H. apply obind_Some in H. destruct H as (z & Z & H). apply obind_Some in H. destruct H as (ps & P & H). apply obind_Some in H. destruct H as (y & A & H). injection H as <-. apply rotated_len in Z. apply parts_lens in P. rewrite Z in P.
  destruct (hybrid_where k (length x) Hk S Hn) as (i & l & E1 & E2 & E3). rewrite <- P in E2. rewrite nth_error_map in E2. destruct (nth_error ps i) as [p|] eqn:Ep; [|discriminate]. cbn in E2. injection E2 as E2.
  assert (0 < y); [|lra]. apply (sum_parts_pos _ (hybrid_nn k) ps y i modified_schwefel p A E1 Ep). intros v Hv. apply ms_low in Hv. assert (0 < INR (length p)) by (apply lt_0_INR; lia). lra.
Qed.
Lemma f_hybrid_some k m s q x n : (11 <= k <= 20)%nat -> In n perm_dims -> square n m -> length s = n -> indices n q -> length x = n -> exists v, f_hybrid k m s q x = Some v.
Proof.
  intros Hk Hn Sq Ls Hq Lx. unfold f_hybrid. destruct (rotated_some m s x n Sq Ls Lx) as (z & -> & Lz). cbn [obind]. destruct (parts_some z q (hybrid_parts k)) as (ps & P); [rewrite Lz; exact Hq|]. rewrite P. cbn [obind]. apply parts_lens in P. rewrite Lz in P.
  destruct (sum_parts_tot (hybrid_funs k) ps) as (y & ->); [apply (tot_parts _ _ (hybrid_tot k n Hk Hn)); exact P|]. cbn. eauto.
Qed.
Lemma f_hybrid_at k m s q n : (11 <= k <= 20)%nat -> has_schwefel k = false -> In n perm_dims -> square n m -> length s = n -> indices n q -> f_hybrid k m s q s = Some (100 * INR k).
Proof.
  intros Hk S Hn Sq Ls Hq. unfold f_hybrid. rewrite (rotated_self m s n Sq Ls). cbn [obind]. rewrite (parts_zero n q _ Hq). cbn [obind]. rewrite (sum_zero _ _ (hybrid_zero k n Hk S Hn)). cbn [obind]. f_equal. lra.
Qed.
Lemma f_hybrid_near k m s q n : (11 <= k <= 20)%nat -> In n perm_dims -> square n m -> length s = n -> indices n q -> exists v, f_hybrid k m s q s = Some v /\ v <= 100 * INR k + INR n * (2 / 10 ^ 5).
Proof.
  intros Hk Hn Sq Ls Hq. unfold f_hybrid. rewrite (rotated_self m s n Sq Ls). cbn [obind]. rewrite (parts_zero n q _ Hq). cbn [obind]. destruct (sum_near _ _ (hybrid_near k n Hk Hn)) as (v & -> & Hv). cbn [obind]. rewrite hybrid_sum in Hv by auto. eexists. split; [reflexivity|]. lra.
Qed.

(* ---------- f21 - f30 ---------- *)
Lemma calc_w_inf x s : calc_w x s = Inf <-> rsum (map sq x) = 0.
Proof. unfold calc_w. destruct (Req_EM_T (rsum (map sq x)) 0); split; congruence. Qed.
Lemma calc_w_fin x s : rsum (map sq x) <> 0 -> exists r, calc_w x s = Fin r /\ 0 < r.
Proof.
  intros H. unfold calc_w. destruct (Req_EM_T (rsum (map sq x)) 0); [contradiction|]. eexists. split; [reflexivity|]. apply Rmult_lt_0_compat; [|apply exp_pos]. apply sqrt_lt_R0. pose proof (sq_sum x). apply Rdiv_lt_0_compat; lra.
Qed.
Lemma calc_w_nan x s : calc_w x s <> NaN. Proof. unfold calc_w. destruct (Req_EM_T _ 0); congruence. Qed.
Lemma fsum_fin l : fsum (map Fin l) = Fin (rsum l). Proof. induction l as [|a l IH]; [reflexivity|]. cbn. fold (fsum (map Fin l)). rewrite IH. reflexivity. Qed.
Lemma fsum_inf l : (forall a, In a l -> a <> NaN) -> In Inf l -> fsum l = Inf.
Proof.
  assert (G : forall l, (forall a, In a l -> a <> NaN) -> fsum l <> NaN). { induction l0 as [|a l0 IH]; intros H; cbn; [discriminate|]. fold (fsum l0). specialize (IH (fun b Hb => H b (or_intror Hb))). pose proof (H a (or_introl eq_refl)). destruct a, (fsum l0); cbn; congruence. }
  induction l as [|a l IH]; intros H I; [destruct I|]. cbn. fold (fsum l). destruct I as [->|I].
  - specialize (G l (fun b Hb => H b (or_intror Hb))). destruct (fsum l); cbn; congruence.
  - rewrite IH; auto; [|intros; apply H; right; auto]. pose proof (H a (or_introl eq_refl)). destruct a; cbn; congruence.
Qed.
Lemma fsum_nan l : In NaN l -> fsum l = NaN.
Proof. induction l as [|a l IH]; intros I; [destruct I|]. cbn. fold (fsum l). destruct I as [->|I]; [reflexivity|]. rewrite IH by exact I. destruct a; reflexivity. Qed.
Lemma weights_inf w : (forall a, In a w -> a <> NaN) -> In Inf w -> exists i, nth_error (weights w) i = Some NaN.
Proof.
  intros H I. unfold weights. rewrite (fsum_inf w H I). apply In_nth_error in I. destruct I as (i & I). exists i. rewrite nth_error_map, I. reflexivity.
Qed.
Lemma weights_fin w : w <> [] -> (forall r, In r w -> 0 < r) -> exists u, weights (map Fin w) = map Fin u /\ length u = length w /\ (forall r, In r u -> 0 < r).
Proof.
  intros N H. unfold weights. rewrite fsum_fin. assert (P : 0 < rsum w). { destruct w as [|a w]; [congruence|]. cbn. pose proof (H a (or_introl eq_refl)). assert (0 <= rsum (map (fun r => r) w)) by (apply rsum_nn; intros; left; apply H; right; auto). rewrite map_id in H1. unfold rsum in H1. lra. }
  destruct (Req_EM_T (rsum w) 0); [lra|]. exists (map (fun a => a / rsum w) w). split; [rewrite !map_map; reflexivity|]. split; [apply map_length|]. intros r Hr. apply in_map_iff in Hr. destruct Hr as (a & <- & Ha). apply Rdiv_lt_0_compat; auto.
Qed.

Definition const_ok (c : comp) : Prop := 0 <= c_lambda c /\ 0 <= c_bias c.
Lemma consts_ok k : Forall const_ok (comp_consts k).
Proof. assert (0 < / 10 ^ 26) by (apply Rinv_0_lt_compat, pow_lt; lra). do 29 (destruct k as [|k]; [cbn [comp_consts]; repeat constructor; cbn [c_lambda c_bias mk]; lra|]). cbn [comp_consts]. repeat constructor; cbn [c_lambda c_bias mk]; lra. Qed.
Lemma consts_second k : exists c, nth_error (comp_consts k) 1 = Some c /\ 0 < c_bias c.
Proof. do 29 (destruct k as [|k]; [eexists; split; [reflexivity|cbn; lra]|]). eexists. split; [reflexivity|cbn; lra]. Qed.
Lemma consts_len k : (21 <= k <= 28)%nat -> length (comp_consts k) = length (comp_funs k).
Proof. intros H. do 29 (destruct k as [|k]; [try lia; reflexivity|]). lia. Qed.

Definition term (p : R * (comp * R)) : R := fst p * (c_lambda (fst (snd p)) * snd (snd p) + c_bias (fst (snd p))).
Lemma compose_terms u : forall cs vals, fsum (map (fun p => fmul (fst p) (Fin (c_lambda (fst (snd p)) * snd (snd p) + c_bias (fst (snd p))))) (combine (map Fin u) (combine cs vals))) = Fin (rsum (map term (combine u (combine cs vals)))).
Proof.
  induction u as [|a u IH]; intros cs vals; [reflexivity|]. destruct cs as [|c cs]; [reflexivity|]. destruct vals as [|v vals]; [reflexivity|]. cbn [map combine fst snd fmul]. unfold fsum. cbn [fold_right]. fold fsum. specialize (IH cs vals). unfold fsum in IH. rewrite IH. reflexivity.
Qed.
Lemma term_nn p : 0 < fst p -> const_ok (fst (snd p)) -> 0 <= snd (snd p) -> 0 <= term p.
Proof. intros A (B & C) D. unfold term. apply Rmult_le_pos; [lra|]. apply Rplus_le_le_0_compat; [apply Rmult_le_pos; assumption|exact C]. Qed.
Lemma term_pos p : 0 < fst p -> const_ok (fst (snd p)) -> 0 <= snd (snd p) -> 0 < c_bias (fst (snd p)) -> 0 < term p.
Proof. intros A (B & C) D E. unfold term. apply Rmult_lt_0_compat; [exact A|]. apply Rplus_le_lt_0_compat; [apply Rmult_le_pos; assumption|exact E]. Qed.
Lemma nth_comb {A B} (l : list A) : forall (r : list B) i a b, nth_error l i = Some a -> nth_error r i = Some b -> nth_error (combine l r) i = Some (a, b).
Proof. induction l as [|x l IH]; intros [|y r] [|i] a b H1 H2; try discriminate; cbn in *; [congruence|]. auto. Qed.
Lemma rsum_pos {A} (g : A -> R) l a : (forall b, In b l -> 0 <= g b) -> In a l -> 0 < g a -> 0 < rsum (map g l).
Proof.
  induction l as [|x l IH]; intros H I P; [destruct I|]. cbn. destruct I as [->|I].
  - assert (0 <= rsum (map g l)) by (apply rsum_nn; intros; apply H; right; auto). unfold rsum in *. lra.
  - assert (0 < rsum (map g l)) by (apply IH; auto; intros; apply H; right; auto). pose proof (H x (or_introl eq_refl)). unfold rsum in *. lra.
Qed.
Lemma compose_val cs vals ds total : (2 <= length cs)%nat -> length vals = length cs -> length ds = length cs -> Forall const_ok cs -> (forall v, In v vals -> 0 <= v) ->
  (exists c, nth_error cs 1 = Some c /\ 0 < c_bias c) ->
  ((exists d, In d ds /\ rsum (map sq d) = 0) /\ compose cs vals ds total = NaN) \/ ((forall d, In d ds -> rsum (map sq d) <> 0) /\ exists v, compose cs vals ds total = Fin v /\ total < v).
Proof.
  intros L Lv Ld Hc Hv (c1 & C1 & C1p). set (w := map (fun p : comp * list R => calc_w (snd p) (c_sigma (fst p))) (combine cs ds)).
  assert (Nn : forall a, In a w -> a <> NaN). { intros a Ha. apply in_map_iff in Ha. destruct Ha as (p & <- & _). apply calc_w_nan. }
  assert (Lw : length w = length cs) by (unfold w; rewrite map_length, combine_length; lia).
  destruct (Exists_dec (fun d => rsum (map sq d) = 0) ds (fun d => Req_EM_T (rsum (map sq d)) 0)) as [E|E].
  - left. apply Exists_exists in E. split; [exact E|]. destruct E as (d & I & Z). apply In_nth_error in I. destruct I as (i & I).
    assert (Iw : In Inf w). { destruct (nth_error cs i) as [c|] eqn:Ec; [|apply nth_error_None in Ec; assert (nth_error ds i <> None) as K by congruence; apply nth_error_Some in K; lia]. unfold w. apply in_map_iff. exists (c, d). split; [apply calc_w_inf; exact Z|]. apply nth_error_In with (n := i). apply nth_comb; auto. }
    destruct (weights_inf w Nn Iw) as (j & Hj). unfold compose. fold w. rewrite fsum_nan; [reflexivity|].
    assert (Lj : (j < length cs)%nat). { assert (K : nth_error (weights w) j <> None) by congruence. apply nth_error_Some in K. unfold weights in K. destruct (fsum w); [destruct (Req_EM_T r 0)| |]; rewrite map_length in K; lia. }
    destruct (nth_error cs j) as [c|] eqn:Ec; [|apply nth_error_None in Ec; lia]. destruct (nth_error vals j) as [v|] eqn:Ev; [|apply nth_error_None in Ev; lia].
    apply in_map_iff. exists (NaN, (c, v)). split; [reflexivity|]. apply nth_error_In with (n := j). apply nth_comb; [exact Hj|]. apply nth_comb; auto.
  - right. rewrite <- Forall_Exists_neg in E. rewrite Forall_forall in E. split; [exact E|].
    assert (W : exists u, w = map Fin u /\ forall r, In r u -> 0 < r).
    { unfold w. assert (G : forall p, In p (combine cs ds) -> rsum (map sq (snd p)) <> 0) by (intros [c d] I; apply in_combine_r in I; auto). clearbody w. clear - G. induction (combine cs ds) as [|p l IH]; [exists []; split; [reflexivity|intros r []]|]. destruct IH as (u & A & B); [intros; apply G; right; auto|]. destruct (calc_w_fin (snd p) (c_sigma (fst p))) as (r & C & D); [apply G; left; reflexivity|].
      exists (r :: u). split; [cbn; rewrite C, A; reflexivity|]. intros r' [<-|I]; auto. }
    destruct W as (u & W & Up). assert (Lu : length u = length cs) by (rewrite <- Lw, W, map_length; reflexivity).
    destruct (weights_fin u) as (t & T1 & T2 & T3); [intros ->; cbn in Lu; lia|exact Up|]. unfold compose. fold w. rewrite W, T1, compose_terms. cbn [fadd]. eexists. split; [reflexivity|].
    assert (0 < rsum (map term (combine t (combine cs vals)))); [|lra]. rewrite Forall_forall in Hc.
    destruct (nth_error t 1) as [t1|] eqn:Et; [|apply nth_error_None in Et; lia]. destruct (nth_error vals 1) as [v1|] eqn:Ev; [|apply nth_error_None in Ev; lia].
    apply (rsum_pos term _ (t1, (c1, v1))).
    + intros (a, (c, v)) I. apply in_combine_l in I as I1. apply in_combine_r in I as I2. apply in_combine_l in I2 as I3. apply in_combine_r in I2 as I4. apply term_nn; cbn; auto.
    + apply nth_error_In with (n := 1%nat). apply nth_comb; [exact Et|]. apply nth_comb; auto.
    + apply nth_error_In in Et, Ev. assert (In c1 cs) by (apply nth_error_In in C1; exact C1). apply term_pos; cbn; auto.
Qed.

Lemma comp_loop_some fs n : Forall (fun f => total_at f n) fs -> forall rots shifts x, length x = n -> (length fs <= length rots)%nat -> (length fs <= length shifts)%nat -> Forall (square n) rots -> Forall (fun s => (n <= length s)%nat) shifts -> exists r, comp_loop fs rots shifts x = Some r.
Proof.
  induction fs as [|f fs IH]; intros F rots shifts x Lx L1 L2 H1 H2; [cbn; eauto|]. destruct rots as [|m rots]; [cbn in L1; lia|]. destruct shifts as [|s shifts]; [cbn in L2; lia|]. inversion F; inversion H1; inversion H2; subst. cbn in L1, L2. cbn [comp_loop]. unfold shifted_by.
  destruct (vsub_some x (firstn (length x) s)) as (d & -> & Ld); [rewrite firstn_length; lia|]. cbn [obind]. destruct (matvec_some m d (length x)) as (z & -> & Lz); [assumption|exact Ld|]. cbn [obind]. destruct (H3 z Lz) as (v & ->). cbn [obind]. destruct (IH H4 rots shifts x eq_refl) as (r & ->); auto; try lia. cbn. eauto.
Qed.
Lemma comp_loop_inv fs : Forall nonneg fs -> forall rots shifts x r, comp_loop fs rots shifts x = Some r -> length (fst r) = length fs /\ length (snd r) = length fs /\ (forall v, In v (fst r) -> 0 <= v) /\
  (forall i d, nth_error (snd r) i = Some d -> exists s, nth_error shifts i = Some s /\ shifted_by s x = Some d) /\ (length fs <= length shifts)%nat.
Proof.
  induction fs as [|f fs IH]; intros F rots shifts x r H; cbn in H.
  - injection H as <-. cbn. split; [lia|]. split; [lia|]. split; [intros v []|]. split; [intros [|i] d E; discriminate|lia].
  - destruct rots as [|m rots]; [discriminate|]. destruct shifts as [|s shifts]; [discriminate|]. inversion F as [|? ? F1 F2]; subst. apply obind_Some in H. destruct H as (d & A & H). apply obind_Some in H. destruct H as (z & B & H). apply obind_Some in H. destruct H as (v & C & H). apply obind_Some in H. destruct H as (r' & D & H). injection H as <-.
    destruct (IH F2 _ _ _ _ D) as (E1 & E2 & E3 & E4 & E5). cbn. split; [lia|]. split; [lia|]. split; [|split; [|lia]].
    + intros w [<-|I]; [apply (F1 z); exact C|auto].
    + intros [|i] e He; cbn in He; [injection He as <-; exists s; auto|]. apply E4. exact He.
Qed.
Lemma comp_nn k : Forall nonneg (comp_funs k).
Proof. do 28 (destruct k as [|k]; [cbn [comp_funs]; repeat (apply Forall_cons; [nn_tac|]); apply Forall_nil|]). cbn [comp_funs]. repeat (apply Forall_cons; [nn_tac|]); apply Forall_nil. Qed.
Lemma comp_tot k n : (2 <= n)%nat -> Forall (fun f => total_at f n) (comp_funs k).
Proof. intros L. do 28 (destruct k as [|k]; [cbn [comp_funs]; repeat (apply Forall_cons; [tot_tac|]); apply Forall_nil|]). cbn [comp_funs]. repeat (apply Forall_cons; [tot_tac|]); apply Forall_nil. Qed.
Lemma shifted_zero s x d : shifted_by s x = Some d -> (rsum (map sq d) = 0 <-> x = firstn (length x) s).
Proof.
  intros H. split; [apply (vsub_zero _ _ _ H)|]. intros E. unfold shifted_by in H. rewrite <- E in H. rewrite vsub_self in H. injection H as <-. apply repeat0_sq.
Qed.
Lemma nth_ex {A} (l : list A) i : (i < length l)%nat -> exists a, nth_error l i = Some a.
Proof. intros H. destruct (nth_error l i) eqn:E; [eauto|]. apply nth_error_None in E. lia. Qed.

Definition comp_verdict (k : nat) (shifts : list (list R)) (x : list R) (v : fl) : Prop :=
  ((exists i s, (i < comp_count k)%nat /\ nth_error shifts i = Some s /\ x = firstn (length x) s) /\ v = NaN) \/
  ((forall i s, (i < comp_count k)%nat -> nth_error shifts i = Some s -> x <> firstn (length x) s) /\ exists r, v = Fin r /\ 100 * INR k < r).
Lemma verdict_of k vals ds shifts x : (2 <= comp_count k)%nat -> length vals = comp_count k -> length ds = comp_count k -> (forall v, In v vals -> 0 <= v) ->
  (forall i d, nth_error ds i = Some d -> exists s, nth_error shifts i = Some s /\ shifted_by s x = Some d) -> comp_verdict k shifts x (compose (comp_consts k) vals ds (100 * INR k)).
Proof.
  intros L Lv Ld Hv Hd. destruct (compose_val (comp_consts k) vals ds (100 * INR k) L Lv Ld (consts_ok k) Hv (consts_second k)) as [((d & I & Z) & E)|(N & E)].
  - left. split; [|exact E]. apply In_nth_error in I. destruct I as (i & I). destruct (Hd i d I) as (s & S1 & S2). exists i, s. split; [|split; [exact S1|apply (shifted_zero s x d S2); exact Z]]. rewrite <- Ld. apply nth_error_Some. congruence.
  - right. split; [|exact E]. intros i s Hi Hs K. destruct (nth_ex ds i) as (d & D); [lia|]. destruct (Hd i d D) as (s' & S1 & S2). rewrite Hs in S1. injection S1 as <-. apply (N d (nth_error_In _ _ D)). apply (shifted_zero s x d S2). exact K.
Qed.
Lemma count_2 k : (2 <= comp_count k)%nat.
Proof. unfold comp_count. do 29 (destruct k as [|k]; [cbn; lia|]). cbn. lia. Qed.
Lemma f_comp_verdict k ms ss x v : (21 <= k <= 28)%nat -> f_comp k ms ss x = Some v -> comp_verdict k ss x v.
Proof.
  intros Hk H. apply obind_Some in H. destruct H as (r & A & H). injection H as <-. destruct (comp_loop_inv _ (comp_nn k) _ _ _ _ A) as (E1 & E2 & E3 & E4 & _). apply verdict_of; auto; [apply count_2|rewrite E1; symmetry; apply consts_len; exact Hk|rewrite E2; symmetry; apply consts_len; exact Hk].
Qed.
Lemma hybrid_loop_inv hs : forall rots shifts qs x r, hybrid_loop hs rots shifts qs x = Some r -> length (fst r) = length hs /\ length (snd r) = length hs /\ (forall v, In v (fst r) -> 0 <= v) /\
  (forall i d, nth_error (snd r) i = Some d -> exists s, nth_error shifts i = Some s /\ shifted_by s x = Some d).
Proof.
  induction hs as [|h hs IH]; intros rots shifts qs x r H; cbn in H.
  - injection H as <-. cbn. split; [lia|]. split; [lia|]. split; [intros v []|]. intros [|i] d E; discriminate.
  - destruct rots as [|m rots]; [discriminate|]. destruct shifts as [|s shifts]; [discriminate|]. destruct qs as [|q qs]; [discriminate|]. apply obind_Some in H. destruct H as (d & A & H). apply obind_Some in H. destruct H as (v & C & H). apply obind_Some in H. destruct H as (r' & D & H). injection H as <-.
    destruct (IH _ _ _ _ _ D) as (E1 & E2 & E3 & E4). cbn [fst snd length]. split; [lia|]. split; [lia|]. split.
    + intros w [<-|I]; [apply f_hybrid_low in C; lra|auto].
    + intros [|i] e He; cbn in He; [injection He as <-; exists s; auto|]. apply E4. exact He.
Qed.
Lemma f_comp_hybrid_verdict k ms ss qs x v : (29 <= k <= 30)%nat -> f_comp_hybrid k ms ss qs x = Some v -> comp_verdict k ss x v.
Proof.
  intros Hk H. apply obind_Some in H. destruct H as (r & A & H). injection H as <-. destruct (hybrid_loop_inv _ _ _ _ _ _ A) as (E1 & E2 & E3 & E4). assert (L : length (comp_hybrids k) = comp_count k) by (assert (C : (k = 29 \/ k = 30)%nat) by lia; destruct C as [->| ->]; reflexivity). apply verdict_of; auto; [apply count_2|lia|lia].
Qed.
Lemma hybrid_loop_some hs n : Forall (fun h => (11 <= h <= 20)%nat) hs -> In n perm_dims -> forall rots shifts qs x, length x = n -> (length hs <= length rots)%nat -> (length hs <= length shifts)%nat -> (length hs <= length qs)%nat -> Forall (square n) rots -> Forall (fun s => (n <= length s)%nat) shifts -> Forall (indices n) qs -> exists r, hybrid_loop hs rots shifts qs x = Some r.
Proof.
  intros F Hn. induction hs as [|h hs IH]; intros rots shifts qs x Lx L1 L2 L3 H1 H2 H3; [cbn; eauto|]. destruct rots as [|m rots]; [cbn in L1; lia|]. destruct shifts as [|s shifts]; [cbn in L2; lia|]. destruct qs as [|q qs]; [cbn in L3; lia|]. inversion F as [|? ? F1 F2]; inversion H1 as [|? ? H1a H1b]; inversion H2 as [|? ? H2a H2b]; inversion H3 as [|? ? H3a H3b]; subst. cbn in L1, L2, L3. cbn [hybrid_loop]. unfold shifted_by.
  destruct (vsub_some x (firstn (length x) s)) as (d & -> & Ld); [rewrite firstn_length; lia|]. cbn [obind]. destruct (f_hybrid_some h m (firstn (length x) s) q x (length x) F1 Hn H1a) as (v & ->); [rewrite firstn_length; lia|exact H3a|reflexivity|]. cbn [obind]. destruct (IH F2 rots shifts qs x eq_refl) as (r & ->); auto; try lia. cbn. eauto.
Qed.
