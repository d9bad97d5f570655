(** Migration: nobody is lost, fitness values stay with their members. *)
From Coq Require Import List Arith ZArith QArith Bool Permutation Sorted Lia.
From Verif Require Import Base BaseFacts Space_Model Opt_Model Opt_Facts Opt_Facts2 AEO_Model AEO_Spec AEO_Sort.
Import ListNotations.
Open Scope nat_scope.

(** ** Removing members *)
Lemma pop_at_perm {A} i : forall (l : list A) x r, pop_at i l = Some (x, r) -> Permutation l (x :: r).
Proof.
  induction i as [|i IH]; intros [|y l] x r H; cbn in H; try discriminate; [injection H as <- <-; reflexivity|].
  apply bind_Some in H as ([z r'] & E & H). injection H as <- <-. apply IH in E. rewrite E. apply perm_swap.
Qed.
Lemma pop_all_perm {A} is_ : forall (l : list A) o r, pop_all is_ l = Some (o, r) -> Permutation l (o ++ r).
Proof.
  induction is_ as [|i is_ IH]; intros l o r H; cbn in H; [injection H as <- <-; reflexivity|].
  apply bind_Some in H as ([x l'] & E & H). apply bind_Some in H as ([xs l''] & E' & H). injection H as <- <-.
  rewrite (pop_at_perm _ _ _ _ E), (IH _ _ _ E'). reflexivity.
Qed.
Lemma pop_at_F2 {A B} (R : A -> B -> Prop) i : forall l m x r, Forall2 R l m -> pop_at i l = Some (x, r) ->
  exists y s, pop_at i m = Some (y, s) /\ R x y /\ Forall2 R r s.
Proof.
  induction i as [|i IH]; intros l m x r HF H; destruct HF as [|u v l m Hu HF]; cbn in H; try discriminate.
  - injection H as <- <-. exists v, m. auto.
  - apply bind_Some in H as ([z r'] & E & H). injection H as <- <-. destruct (IH _ _ _ _ HF E) as (y & s & E' & H1 & H2).
    exists y, (v :: s). cbn. rewrite E'. cbn. auto.
Qed.
Lemma pop_all_F2 {A B} (R : A -> B -> Prop) is_ : forall l m o r, Forall2 R l m -> pop_all is_ l = Some (o, r) ->
  exists o' r', pop_all is_ m = Some (o', r') /\ Forall2 R o o' /\ Forall2 R r r'.
Proof.
  induction is_ as [|i is_ IH]; intros l m o r HF H; cbn in H; [injection H as <- <-; exists [], m; cbn; auto|].
  apply bind_Some in H as ([x l'] & E & H). apply bind_Some in H as ([xs l''] & E' & H). injection H as <- <-.
  destruct (pop_at_F2 R _ _ _ _ _ HF E) as (y & s & E1 & H1 & H2).
  destruct (IH _ _ _ _ H2 E') as (o' & r' & E2 & H3 & H4). exists (y :: o'), r'. cbn. rewrite E1. cbn. rewrite E2. cbn. auto.
Qed.
Lemma pop_at_FOP {A} (R : A -> A -> Prop) i : forall l x r, ForallOrdPairs R l -> pop_at i l = Some (x, r) -> ForallOrdPairs R r.
Proof.
  induction i as [|i IH]; intros [|y l] x r HF H; cbn in H; try discriminate; inversion HF as [|? ? Hy Hl]; subst.
  - injection H as <- <-. auto.
  - apply bind_Some in H as ([z r'] & E & H). injection H as <- <-. constructor; [|eapply IH; eauto].
    apply pop_at_perm in E. rewrite E in Hy. inversion Hy; auto.
Qed.
Lemma pop_all_FOP {A} (R : A -> A -> Prop) is_ : forall l o r, ForallOrdPairs R l -> pop_all is_ l = Some (o, r) -> ForallOrdPairs R r.
Proof.
  induction is_ as [|i is_ IH]; intros l o r HF H; cbn in H; [injection H as <- <-; auto|].
  apply bind_Some in H as ([x l'] & E & H). apply bind_Some in H as ([xs l''] & E' & H). injection H as <- <-.
  eapply IH; [|exact E']. eapply pop_at_FOP; eauto.
Qed.
Lemma pop_at_total {A} i : forall (l : list A), i < length l -> exists x r, pop_at i l = Some (x, r) /\ length r = length l - 1.
Proof.
  induction i as [|i IH]; intros [|y l] H; cbn in *; try lia; [exists y, l; split; auto; lia|].
  destruct (IH l) as (x & r & E & Hr); [lia|]. exists x, (y :: r). rewrite E. cbn. split; auto. lia.
Qed.
Lemma pop_all_total {A} is_ : forall (l : list A), StronglySorted (fun a b => b < a) is_ -> Forall (fun i => i < length l) is_ ->
  exists o r, pop_all is_ l = Some (o, r) /\ length o = length is_ /\ length o + length r = length l.
Proof.
  induction is_ as [|i is_ IH]; intros l Hs Hf; cbn; [exists [], l; cbn; auto|].
  inversion Hs as [|? ? Hs' Hi]; subst. inversion Hf as [|? ? Hi' Hf']; subst.
  destruct (pop_at_total i l Hi') as (x & r & E & Hr). rewrite E. cbn.
  destruct (IH r Hs') as (o & r' & E' & H1 & H2).
  { rewrite Forall_forall in *. intros j Hj. specialize (Hi j Hj). specialize (Hf' j Hj). lia. }
  rewrite E'. cbn. exists (x :: o), r'. cbn. split; auto. lia.
Qed.
Lemma desc_perm is_ : Permutation (desc is_) is_.
Proof. unfold desc. rewrite <- Permutation_rev. apply pysort_perm. Qed.
Lemma desc_sorted is_ : NoDup is_ -> StronglySorted (fun a b => b < a) (desc is_).
Proof.
  intros Hn. unfold desc.
  assert (H : StronglySorted (le Nat.ltb) (pysort Nat.ltb is_)).
  { apply pysort_sorted; unfold le; intros a b; [intros H; apply Nat.ltb_lt in H; apply Nat.ltb_ge; lia|].
    intros c H1 H2. apply Nat.ltb_ge in H1, H2. apply Nat.ltb_ge. lia. }
  assert (Hn' : NoDup (pysort Nat.ltb is_)) by (eapply Permutation_NoDup; [symmetry; apply pysort_perm | exact Hn]).
  revert H Hn'. generalize (pysort Nat.ltb is_). clear. induction 1 as [|x l Hl IH Hx]; cbn; intros Hn; [constructor|].
  inversion Hn; subst. apply SS_app; [auto | repeat constructor|]. intros u v Hu [<-|[]]. apply in_rev in Hu.
  rewrite Forall_forall in Hx. specialize (Hx u Hu). unfold le in Hx. apply Nat.ltb_ge in Hx.
  assert (u <> x) by (intros ->; auto). lia.
Qed.

(** ** Export *)
Definition known_first (p : apop) : Prop := ForallOrdPairs (blocks true) (ap_fit p).
Lemma FOP_rev {A} (R : A -> A -> Prop) l : ForallOrdPairs R l -> ForallOrdPairs (fun x y => R y x) (rev l).
Proof.
  assert (G : forall (S : A -> A -> Prop) a b, ForallOrdPairs S a -> ForallOrdPairs S b -> (forall x y, In x a -> In y b -> S x y) -> ForallOrdPairs S (a ++ b)).
  { induction 1 as [|x a Hx Ha IH]; intros Hb Hab; cbn; auto. constructor; [|apply IH; auto; intros; apply Hab; auto; now right].
    apply Forall_app. split; auto. apply Forall_forall. intros y Hy. apply Hab; auto. now left. }
  induction 1 as [|x l Hx Hl IH]; cbn; [constructor|]. apply G; auto; [repeat constructor|].
  intros u v Hu [<-|[]]. apply in_rev in Hu. rewrite Forall_forall in Hx. auto.
Qed.
Lemma FOP_app2 {A} (S : A -> A -> Prop) a b : ForallOrdPairs S a -> ForallOrdPairs S b -> (forall x y, In x a -> In y b -> S x y) -> ForallOrdPairs S (a ++ b).
Proof.
  induction 1 as [|x a Hx Ha IH]; intros Hb Hab; cbn; auto. constructor; [|apply IH; auto; intros; apply Hab; auto; now right].
  apply Forall_app. split; auto. apply Forall_forall. intros y Hy. apply Hab; auto. now left.
Qed.
Lemma sorted_blocks top l : StronglySorted (le (flt top)) l -> ForallOrdPairs (blocks top) l.
Proof.
  induction 1 as [|x l Hl IH Hx]; constructor; auto. eapply Forall_impl; [|exact Hx].
  intros y. unfold le, flt. destruct x, y, top; cbn; auto; discriminate.
Qed.
Lemma pysort_blocks top l : ForallOrdPairs (blocks top) l -> ForallOrdPairs (blocks top) (pysort fit_ltb l).
Proof.
  intros H. rewrite (pysort_ext fit_ltb (flt top)) by (eapply FOP_impl; [|exact H]; cbn; intros x y; apply flt_agree).
  apply sorted_blocks, pysort_sorted; unfold le, flt; [intros a b; apply list_ltb_asym | intros a b c; apply list_ltb_trans].
Qed.
Lemma blocks_flip x y : blocks true x y -> blocks false y x.
Proof. destruct x, y; cbn; auto; discriminate. Qed.
Lemma blocks_flip' x y : blocks false x y -> blocks true y x.
Proof. destruct x, y; cbn; auto; discriminate. Qed.
Lemma pysort_rev_blocks l : ForallOrdPairs (blocks true) l -> ForallOrdPairs (blocks true) (pysort_rev fit_ltb l).
Proof.
  intros H. unfold pysort_rev.
  assert (G : ForallOrdPairs (blocks false) (pysort fit_ltb (rev l))).
  { apply pysort_blocks. eapply FOP_impl; [|apply FOP_rev, H]. intros x y. apply blocks_flip. }
  eapply FOP_impl; [|apply FOP_rev, G]. intros x y. apply blocks_flip'.
Qed.

Lemma combine_fst {A B} (a : list A) : forall (b : list B), length b = length a -> map fst (combine a b) = a.
Proof. induction a as [|x a IH]; intros [|y b] H; try discriminate; cbn; auto. f_equal. apply IH. cbn in H. lia. Qed.
Lemma combine_snd {A B} (a : list A) : forall (b : list B), length b = length a -> map snd (combine a b) = b.
Proof. induction a as [|x a IH]; intros [|y b] H; try discriminate; cbn; auto. f_equal. apply IH. cbn in H. lia. Qed.
Lemma combine_maps {A B} (l : list (A * B)) : combine (map fst l) (map snd l) = l.
Proof. induction l as [|[a b] l IH]; cbn; congruence. Qed.
Lemma F2_map_l {A B} (f : A -> B) l : Forall2 (fun y x => y = f x) (map f l) l.
Proof. induction l; cbn; constructor; auto. Qed.
Lemma F2_eq_map {A B} (f : A -> B) m l : Forall2 (fun y x => y = f x) m l -> m = map f l.
Proof. induction 1; cbn; congruence. Qed.

Definition swap {A B} (x : A * B) : B * A := (snd x, fst x).
Lemma combine_swap {A B} (a : list A) : forall b : list B, map swap (combine b a) = combine a b.
Proof. induction a as [|x a IH]; intros [|y b]; cbn; auto. f_equal. apply IH. Qed.

(** The order in which the members and the values are before the draw. *)
Lemma ordered_ok (bw : bool) p : length (ap_fit p) = length (ap_mem p) -> known_first p ->
  let ps := combine (ap_fit p) (ap_mem p) in
  let ms := if bw then map snd (pysort pair_ltb ps) else map snd (pysort_rev pair_ltb ps) in
  let fs := if bw then pysort fit_ltb (ap_fit p) else pysort_rev fit_ltb (ap_fit p) in
  length fs = length ms /\ length ms = length (ap_mem p) /\ ForallOrdPairs (blocks true) fs /\
  exists sp, Forall2 psame (combine ms fs) sp /\ Permutation (pairs p) sp.
Proof.
  intros Hl Hk ps ms fs.
  assert (Hf : map fst ps = ap_fit p) by (apply combine_fst; auto).
  assert (Hps : length ps = length (ap_mem p)) by (unfold ps; rewrite combine_length; lia).
  set (sps := if bw then pysort pair_ltb ps else pysort_rev pair_ltb ps).
  assert (Hms : ms = map snd sps) by (unfold ms, sps; destruct bw; reflexivity).
  assert (Hp : Permutation sps ps) by (unfold sps; destruct bw; [apply pysort_perm | apply pysort_rev_perm]).
  assert (Ha : Forall2 fsame (map fst sps) fs).
  { unfold sps, fs. rewrite <- Hf. unfold known_first in Hk. rewrite <- Hf in Hk. destruct bw.
    - apply (sorts_alike true). exact Hk.
    - unfold pysort_rev. rewrite map_rev. rewrite <- map_rev. rewrite <- map_rev.
      assert (G : Forall2 fsame (map fst (pysort pair_ltb (rev ps))) (pysort fit_ltb (map fst (rev ps)))).
      { apply (sorts_alike false). rewrite map_rev. eapply FOP_impl; [|apply FOP_rev, Hk]. intros x y. apply blocks_flip. }
      rewrite map_rev. revert G. generalize (map fst (pysort pair_ltb (rev ps))), (pysort fit_ltb (map fst (rev ps))).
      clear. intros l m G. induction G as [|x y l m Hx G IH]; cbn; [constructor|]. apply Forall2_app; auto. }
  assert (Hlen : length sps = length (ap_mem p)) by (rewrite (Permutation_length Hp); auto).
  assert (Hlf : length fs = length (map fst sps)) by (symmetry; eapply Forall2_length; eauto).
  rewrite map_length in Hlf.
  split; [rewrite Hms, map_length; lia|]. split; [rewrite Hms, map_length; lia|]. split.
  - unfold fs. destruct bw; [apply pysort_blocks, Hk | apply pysort_rev_blocks, Hk].
  - exists (map swap sps). split.
    + rewrite Hms. clearbody fs sps. clear -Ha. revert fs Ha. induction sps as [|[f m] sps IH]; intros fs Ha; inversion Ha; subst; cbn; [constructor|].
      constructor; [|apply IH; auto]. split; cbn; auto. destruct f, y; cbn in *; auto. symmetry. auto.
    + unfold pairs. rewrite <- combine_swap. symmetry. apply Permutation_map. exact Hp.
Qed.

Lemma psame_refl x : psame x x.
Proof. split; auto. destruct (snd x); cbn; auto. reflexivity. Qed.
Lemma export_ok wt o g idx p out p' : in_step p -> known_first p -> pop_export wt o g idx p = Some (out, p') ->
  in_step p' /\ known_first p' /\ ap_log p' = ap_log p /\ ap_alg p' = ap_alg p /\ ap_nc p' = ap_nc p /\
  exists stay gone, Permutation (pairs p) (stay ++ gone) /\ map fst gone = out /\ Forall2 psame (pairs p') stay /\
    length out = length (desc (if ap_n p =? 0 then [] else idx)).
Proof.
  intros [Hl Hn] Hk H. unfold pop_export in H.
  apply bind_Some in H as ([ms fs] & E & H).
  assert (K : length fs = length ms /\ length ms = length (ap_mem p) /\ ForallOrdPairs (blocks true) fs /\
              exists sp, Forall2 psame (combine ms fs) sp /\ Permutation (pairs p) sp).
  { destruct wt.
    - injection E as <- <-. repeat (split; auto). exists (pairs p). split; [|reflexivity].
      unfold pairs. generalize (combine (ap_mem p) (ap_fit p)). clear. induction l; constructor; auto using psame_refl.
    - apply bind_Some in E as (bw & _ & E).
      pose proof (ordered_ok bw p Hl Hk) as K. cbn zeta in K. destruct bw; injection E as <- <-; exact K. }
  clear E. destruct K as (K1 & K2 & K3 & sp & K4 & K5).
  set (ix := if ap_n p =? 0 then [] else idx) in *.
  apply bind_Some in H as ([o1 ms'] & E1 & H). apply bind_Some in H as ([o2 fs'] & E2 & H). injection H as <- <-.
  assert (L1 : Forall2 (fun y x => y = fst x) ms (combine ms fs)) by (rewrite <- (combine_fst ms fs K1) at 1; apply F2_map_l).
  assert (L2 : Forall2 (fun y x => y = snd x) fs (combine ms fs)) by (rewrite <- (combine_snd ms fs K1) at 1; apply F2_map_l).
  destruct (pop_all_F2 _ _ _ _ _ _ L1 E1) as (oc & rc & E3 & M1 & M2).
  destruct (pop_all_F2 _ _ _ _ _ _ L2 E2) as (oc' & rc' & E3' & M3 & M4).
  rewrite E3 in E3'. injection E3' as <- <-.
  apply F2_eq_map in M1, M2, M3, M4. subst o1 ms' o2 fs'.
  destruct (pop_all_F2 _ _ _ _ _ _ K4 E3) as (gone & stay & E4 & N1 & N2).
  assert (Hlen : forall is_ (l : list (list Q)) o r, pop_all is_ l = Some (o, r) -> length o = length is_).
  { clear. induction is_ as [|i is_ IH]; intros l o r H; cbn in H; [injection H as <- <-; auto|].
    apply bind_Some in H as ([x l'] & E & H). apply bind_Some in H as ([xs l''] & E' & H). injection H as <- <-. cbn. f_equal. eauto. }
  split; [split; cbn; rewrite ?map_length; auto|]. split; [unfold known_first; cbn; eapply pop_all_FOP; eauto|].
  repeat (split; [reflexivity|]). exists stay, gone. split; [|split; [|split]].
  - rewrite K5, (pop_all_perm _ _ _ _ E4). apply Permutation_app_comm.
  - clear -N1. induction N1 as [|x y l m [Hx _] N1 IH]; cbn; congruence.
  - unfold pairs. cbn [ap_mem ap_fit]. rewrite combine_maps. exact N2.
  - exact (Hlen _ _ _ _ E1).
Qed.

Lemma receive_ok xs p : in_step p -> known_first p -> in_step (receive xs p) /\ known_first (receive xs p) /\
  pairs (receive xs p) = pairs p ++ map (fun x => (x, NaN)) xs.
Proof.
  intros [Hl Hn] Hk. split; [|split].
  - split; cbn; auto. rewrite !app_length, map_length. lia.
  - unfold known_first. cbn. apply FOP_app2; auto.
    + clear. induction xs as [|x xs IH]; cbn; constructor; auto. apply Forall_forall. intros y Hy. apply in_map_iff in Hy as (? & <- & _). exact I.
    + intros x y _ Hy. apply in_map_iff in Hy as (? & <- & _). destruct x; cbn; auto.
  - unfold pairs. cbn. revert Hl. generalize (ap_mem p), (ap_fit p). clear. intros a. induction a as [|x a IH]; intros [|y b] H; try discriminate; cbn.
    + induction xs; cbn; congruence.
    + f_equal. apply IH. cbn in H. lia.
Qed.

(** ** Handing out *)
Fixpoint chunks {A} (al : list nat) (pool : list A) : list (list A) :=
  match al with [] => [] | a :: r => firstn a pool :: chunks r (skipn a pool) end.
Lemma hand_out_chunks al : forall pool ps, length al = length ps ->
  hand_out al pool ps = map (fun xp => receive (fst xp) (snd xp)) (combine (chunks al pool) ps).
Proof. induction al as [|a al IH]; intros pool [|p ps] H; try discriminate; cbn; auto. f_equal. apply IH. cbn in H. lia. Qed.
Lemma chunks_length {A} al : forall pool : list A, length (chunks al pool) = length al.
Proof. induction al; intros; cbn; auto. Qed.
Lemma chunks_concat {A} al : forall pool : list A, list_sum al = length pool -> concat (chunks al pool) = pool.
Proof.
  induction al as [|a al IH]; intros pool H; cbn [chunks concat].
  - destruct pool; auto; discriminate.
  - rewrite IH; [apply firstn_skipn|]. rewrite skipn_length. unfold list_sum. cbn in H. lia.
Qed.
