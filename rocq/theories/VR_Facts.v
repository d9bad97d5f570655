From Coq Require Import List Arith Bool Lia.
From Verif Require Import VR_Model VR_Spec VR_Proofs.
Import ListNotations.

Section Unique.
Context {A : Type}.
Variables (trigger : nat -> bool) (L : nat) (l : list (call A)).
Lemma length_le : forall ws ws' t m m', videos trigger L l ws -> videos trigger L l ws' -> In (t, m) ws -> In (t, m') ws' -> m' <= m.
Proof.
  intros ws ws' t m m' H H' Hi Hi'. destruct (le_gt_dec m' m) as [B|B]; [exact B|exfalso].
  pose proof (v_length _ _ _ _ H' _ _ Hi') as B'. pose proof (v_time _ _ _ _ H' _ _ Hi') as Bt.
  destruct (v_steps _ _ _ _ H' t m' (S (t + m)) Hi' ltac:(lia) ltac:(lia)) as [a Ha]. replace (S (t + m) - 1) with (t + m) in Ha by lia.
  destruct (v_full _ _ _ _ H _ _ Hi) as [E|[E|E]]; [lia|congruence|lia].
Qed.
Lemma unique_in : forall n ws ws', videos trigger L l ws -> videos trigger L l ws' -> forall t m, t <= n -> In (t, m) ws -> In (t, m) ws'.
Proof.
  induction n as [|n IH]; intros ws ws' H H' t m Ht Hi; [pose proof (v_time _ _ _ _ H _ _ Hi); lia|].
  pose proof (v_time _ _ _ _ H _ _ Hi) as Bt.
  assert (G : exists m', In (t, m') ws').
  { destruct (v_begins _ _ _ _ H _ _ Hi) as [E|[[a E] Et]].
    - apply (v_reset _ _ _ _ H'); [lia|exact E].
    - destruct (v_trigger _ _ _ _ H' t a ltac:(lia) E Et) as (t0 & m0 & Hi0 & B0). destruct (Nat.eq_dec t0 t) as [->|Ne]; [exists m0; exact Hi0|].
      assert (Hi1 : In (t0, m0) ws) by (apply (IH ws' ws H' H t0 m0); [lia|exact Hi0]).
      pose proof (fop_pairs trigger L l ws H _ _ _ _ Hi1 Hi ltac:(lia)). lia. }
  destruct G as [m' Hi']. replace m with m'; [exact Hi'|]. apply Nat.le_antisymm; eapply length_le; [exact H|exact H'|exact Hi|exact Hi'|exact H'|exact H|exact Hi'|exact Hi].
Qed.
Lemma unique : forall ws ws', videos trigger L l ws -> videos trigger L l ws' -> ws = ws'.
Proof.
  intros ws ws' H H'. assert (I : forall w, In w ws <-> In w ws').
  { intros [t m]. split; intros Hi; eapply unique_in; [exact H|exact H'|apply le_n|exact Hi|exact H'|exact H|apply le_n|exact Hi]. }
  pose proof (v_order _ _ _ _ H) as O. pose proof (v_order _ _ _ _ H') as O'. clear H H'. revert ws' I O'. induction O as [|w ws F O IH]; intros ws' I O'.
  - destruct ws' as [|w' ws']; [reflexivity|]. destruct (proj2 (I w')). left; reflexivity.
  - destruct ws' as [|w' ws']; [destruct (proj1 (I w)); left; reflexivity|]. inversion O' as [|x y F' O'']; subst. rewrite Forall_forall in F, F'.
    assert (E : w = w').
    { destruct (proj1 (I w) (or_introl eq_refl)) as [E|E]; [congruence|]. destruct (proj2 (I w') (or_introl eq_refl)) as [E'|E']; [congruence|].
      pose proof (F _ E'). pose proof (F' _ E). cbn in *. lia. }
    subst w'. f_equal. apply IH; auto. intros v. split; intros Hi.
    + destruct (proj1 (I v) (or_intror Hi)) as [E|E]; [|exact E]. subst v. pose proof (F _ Hi). cbn in *. lia.
    + destruct (proj2 (I v) (or_intror Hi)) as [E|E]; [|exact E]. subst v. pose proof (F' _ Hi). cbn in *. lia.
Qed.
End Unique.

Section Files.
Context {E A F : Type}.
Variables (reset : E -> E) (step : E -> A -> E) (render : E -> F) (trigger : nat -> bool) (L : nat).
Lemma find_last : forall (f : nat -> nat) (g : nat * nat -> list F) ws k fs, ForallOrdPairs (fun a b : nat * nat => fst a + snd a < fst b) ws ->
  (option_map snd (find (fun v => fst v =? k) (rev (map (fun w => (f (fst w), g w)) ws))) = Some fs <->
   exists t m, In (t, m) ws /\ f t = k /\ (forall t' m', In (t', m') ws -> f t' = k -> t' <= t) /\ fs = g (t, m)).
Proof.
  intros f g ws k fs. induction ws as [|[t m] ws IH] using rev_ind; intros O.
  - cbn. split; [discriminate|]. intros (t & m & [] & _).
  - apply fop_app in O. destruct O as [O1 O2]. rewrite Forall_forall in O2. rewrite map_app, rev_app_distr. cbn [map rev app find fst snd].
    destruct (Nat.eqb_spec (f t) k) as [Ek|Ek]; cbn [option_map snd].
    + split.
      * intros H. injection H as <-. exists t, m. split; [apply in_or_app; right; left; reflexivity|]. split; [exact Ek|]. split; [|reflexivity].
        intros t' m' Hi _. apply in_app_or in Hi. destruct Hi as [Hi|[Hi|[]]]; [|injection Hi as <- <-; lia]. pose proof (O2 _ Hi) as Q. cbn [fst snd] in Q. lia.
      * intros (t1 & m1 & Hi & E1 & Hmax & ->). apply in_app_or in Hi. destruct Hi as [Hi|[Hi|[]]]; [|injection Hi as <- <-; reflexivity].
        pose proof (O2 _ Hi) as Q. cbn [fst snd] in Q. pose proof (Hmax t m ltac:(apply in_or_app; right; left; reflexivity) Ek). lia.
    + rewrite (IH O1). split; intros (t1 & m1 & Hi & E1 & Hmax & ->); exists t1, m1.
      * split; [apply in_or_app; left; exact Hi|]. split; [exact E1|]. split; [|reflexivity]. intros t' m' Hi' E'. apply in_app_or in Hi'.
        destruct Hi' as [Hi'|[Hi'|[]]]; [eapply Hmax; eauto|]. injection Hi' as <- <-. contradiction.
      * apply in_app_or in Hi. destruct Hi as [Hi|[Hi|[]]]; [|injection Hi as <- <-; contradiction]. split; [exact Hi|]. split; [exact E1|]. split; [|reflexivity].
        intros t' m' Hi' E'. eapply Hmax; [apply in_or_app; left; exact Hi'|exact E'].
Qed.
Lemma files_iff : forall e (l : list (call A)), exists ws, videos trigger L l ws /\ forall k fs,
  file (close (run reset step render trigger L e l)) k = Some fs <->
  exists t m, In (t, m) ws /\ steps l t = k /\ (forall t' m', In (t', m') ws -> steps l t' = k -> t' <= t) /\ fs = map (fun j => render (at_time reset step e l j)) (seq t (S m)).
Proof.
  intros e l. destruct (all_videos reset step render trigger L e l) as (ws & Hv & Hf). exists ws. split; [exact Hv|]. intros k fs. unfold file. rewrite Hf.
  apply (find_last (steps l) (fun w => map (fun j => render (at_time reset step e l j)) (seq (fst w) (S (snd w)))) ws k fs). apply (v_order _ _ _ _ Hv).
Qed.
End Files.
Section Names.
Context {A : Type}.
Variables (trigger : nat -> bool) (L : nat) (l : list (call A)) (ws : list (nat * nat)).
Hypothesis Hv : videos trigger L l ws.
(** A video that is not cut off shows the steps its name says. *)
Lemma names : forall t m, In (t, m) ws -> (forall j, j <= m -> steps l (t + j) = steps l t + j) /\
  (1 <= L -> m <= L) /\ (1 <= L -> nth_error l (t + m) <> Some Reset -> t + m < length l -> m = L).
Proof.
  intros t m Hi. split; [intros j Hj; eapply steps_in; eauto|]. pose proof (v_length _ _ _ _ Hv t m Hi) as B. unfold full in B. split; [lia|].
  intros H1 Hn Hlt. destruct (v_full _ _ _ _ Hv t m Hi) as [E|[E|E]]; [unfold full in E; lia|contradiction|lia].
Qed.
Lemma steps_mono : forall t u, t <= u -> u <= length l -> steps l t <= steps l u.
Proof.
  intros t u H. induction H as [|u H IH]; intros Hu; [lia|]. destruct (nth_error l u) as [c|] eqn:E; [|apply nth_error_None in E; lia].
  rewrite (steps_S l u c E). specialize (IH ltac:(lia)). lia.
Qed.
(** A video replaced by another one has one frame. *)
Lemma replaced : forall t m t' m', In (t, m) ws -> In (t', m') ws -> t < t' -> steps l t = steps l t' -> m = 0.
Proof.
  intros t m t' m' Hi Hi' Hlt Hs. pose proof (fop_pairs trigger L l ws Hv _ _ _ _ Hi Hi' Hlt). pose proof (v_time _ _ _ _ Hv _ _ Hi').
  pose proof (steps_in trigger L l ws Hv t m m Hi (le_n _)). pose proof (steps_mono (t + m) t' ltac:(lia) ltac:(lia)). lia.
Qed.
End Names.
(** ** A trigger for every [L]-th step *)
Section Every.
Context {A : Type}.
Variables (L : nat) (acts : list A) (ws : list (nat * nat)).
Hypothesis HL : 1 <= L.
Let l : list (call A) := Reset :: map Step acts.
Hypothesis Hv : videos (every L) L l ws.
Lemma nth_l : forall t, 1 <= t -> t <= length acts -> exists a, nth_error l t = Some (Step a).
Proof.
  intros [|t] H1 H2; [lia|]. cbn [l nth_error]. destruct (nth_error acts t) as [a|] eqn:E; [|apply nth_error_None in E; lia]. exists a. apply map_nth_error. exact E.
Qed.
Lemma steps_l : forall t, t <= length acts -> steps l (S t) = t.
Proof.
  induction t as [|t IH]; intros H; [reflexivity|]. destruct (nth_l (S t) ltac:(lia) H) as [a Ha]. rewrite (steps_S l (S t) _ Ha). rewrite IH by lia. lia.
Qed.
Lemma len_l : length l = S (length acts). Proof. cbn [l length]. rewrite map_length. reflexivity. Qed.
Lemma mult : forall t m, In (t, m) ws -> exists q, t = q * L + 1.
Proof.
  intros t m Hi. pose proof (v_time _ _ _ _ Hv _ _ Hi) as B. rewrite len_l in B. destruct (v_begins _ _ _ _ Hv _ _ Hi) as [E|[_ E]].
  - destruct (Nat.eq_dec t 1) as [->|N]; [exists 0; reflexivity|]. destruct (nth_l (t - 1) ltac:(lia) ltac:(lia)) as [a Ha]. congruence.
  - replace t with (S (t - 1)) in E by lia. rewrite steps_l in E by lia. unfold every in E. apply Nat.eqb_eq in E. apply Nat.mod_divides in E; [|lia].
    destruct E as [q E]. exists q. lia.
Qed.
Lemma long : forall t m, In (t, m) ws -> m <= L /\ (m = L \/ t + m = length l).
Proof.
  intros t m Hi. pose proof (v_time _ _ _ _ Hv _ _ Hi) as B. rewrite len_l in *. pose proof (v_length _ _ _ _ Hv _ _ Hi) as B1. unfold full in B1. split; [lia|].
  destruct (v_full _ _ _ _ Hv _ _ Hi) as [E|[E|E]]; [left; unfold full in E; lia| |right; rewrite len_l in E; exact E].
  destruct (le_gt_dec (t + m) (length acts)) as [C|C]; [|right; lia]. destruct (nth_l (t + m) ltac:(lia) C) as [a Ha]. congruence.
Qed.
Lemma every_second : forall q, q * L <= length acts -> ((exists m, In (q * L + 1, m) ws) <-> Nat.even q = true).
Proof.
  assert (G : forall n q, q <= n -> q * L <= length acts -> ((exists m, In (q * L + 1, m) ws) <-> Nat.even q = true)).
  { induction n as [|n IH]; intros q Hq Hb.
    - replace q with 0 by lia. cbn [Nat.mul Nat.add]. split; [reflexivity|]. intros _. apply (v_reset _ _ _ _ Hv); [lia|reflexivity].
    - destruct (Nat.eq_dec q (S n)) as [->|N]; [|apply IH; lia]. assert (Bn : n * L + L <= length acts) by (cbn in Hb; lia). split.
      + intros [m Hi]. destruct (Nat.even (S n)) eqn:Ev; [reflexivity|]. exfalso. rewrite Nat.even_succ, <- Nat.negb_even in Ev. apply negb_false_iff in Ev.
        destruct (proj2 (IH n (le_n _) ltac:(lia)) Ev) as [m0 Hi0]. destruct (long _ _ Hi0) as [_ [E|E]].
        * pose proof (fop_pairs _ _ _ _ Hv _ _ _ _ Hi0 Hi ltac:(cbn; lia)). subst m0. cbn in H. lia.
        * rewrite len_l in E. pose proof (fop_pairs _ _ _ _ Hv _ _ _ _ Hi0 Hi ltac:(cbn; lia)). pose proof (v_time _ _ _ _ Hv _ _ Hi) as T. rewrite len_l in T. lia.
      + intros Ev. destruct (nth_l (S n * L) ltac:(cbn; lia) Hb) as [a Ha].
        destruct (v_trigger _ _ _ _ Hv (S n * L + 1) a) as (t0 & m0 & Hi0 & B0); [lia|replace (S n * L + 1 - 1) with (S n * L) by lia; exact Ha| |].
        { rewrite Nat.add_1_r, steps_l by exact Hb. unfold every. rewrite Nat.mod_mul by lia. reflexivity. }
        destruct (mult _ _ Hi0) as [p Ep]. subst t0. destruct (Nat.eq_dec p (S n)) as [->|Np]; [exists m0; exact Hi0|exfalso].
        assert (Hp : p <= n) by (destruct (le_gt_dec p n) as [C|C]; [exact C|]; assert (S (S n) * L <= p * L) by (apply Nat.mul_le_mono_r; lia); cbn in *; lia).
        assert (Hpn : p * L <= n * L) by (apply Nat.mul_le_mono_r; exact Hp).
        assert (Evp : Nat.even p = true) by (apply (IH p Hp); [lia|exists m0; exact Hi0]).
        destruct (Nat.eq_dec p n) as [->|Nn]; [rewrite Nat.even_succ, <- Nat.negb_even, Evp in Ev; discriminate|].
        assert (S p * L <= n * L) by (apply Nat.mul_le_mono_r; lia). destruct (long _ _ Hi0) as [C _]. cbn in *. lia. }
  intros q. apply (G q q). apply le_n.
Qed.
End Every.
