(** DE on shared lists: what one run leaves. *)
From Coq Require Import List Arith ZArith QArith Bool Lia Lqa Permutation.
From Verif Require Import Base BaseFacts Space_Model Space_Spec Space_Facts Opt_Model Opt_Spec Opt_Facts Opt_Facts2 Pop_Model Pop_Spec Pop_Proofs DE_Model DE_Proofs P2_Model P2_Spec P2_Mem.
Import ListNotations.
Open Scope nat_scope.

Lemma keeps_discrete mt ds : keeps_ints mt ds -> discrete_ok mt ds.
Proof.
  intros [->|(H & F)].
  - split; [discriminate|]. auto.
  - split; auto. right. eapply Forall_impl; [|exact F]. intros d E. simpl. congruence.
Qed.

Lemma veq_refl x : Forall2 Qeq x x.
Proof. induction x; constructor; auto. reflexivity. Qed.
Lemma veq_sym x y : Forall2 Qeq x y -> Forall2 Qeq y x.
Proof. induction 1; constructor; auto. symmetry; auto. Qed.
Lemma veq_trans x y z : Forall2 Qeq x y -> Forall2 Qeq y z -> Forall2 Qeq x z.
Proof. intros H. revert z. induction H; intros z Hz; inversion Hz; subst; constructor; eauto. etransitivity; eauto. Qed.

(** Old references still denote the same numbers. *)
Definition old_kept (h h' : heap) : Prop := forall r, r < length h -> Forall2 Qeq (h_get h r) (h_get h' r).
Lemma old_refl h : old_kept h h.
Proof. intros r _. apply veq_refl. Qed.
Lemma old_trans h1 h2 h3 : length h1 <= length h2 -> old_kept h1 h2 -> old_kept h2 h3 -> old_kept h1 h3.
Proof. intros L A B r Hr. eapply veq_trans; [apply A; auto|apply B; lia]. Qed.
Lemma old_app h l : old_kept h (h ++ l).
Proof. intros r Hr. unfold h_get. rewrite app_nth1 by auto. apply veq_refl. Qed.

Lemma get_set h : forall r i x, h_get (set_nth h i x) r = if (r =? i) && (i <? length h) then x else h_get h r.
Proof.
  unfold h_get. induction h as [|a h IH]; intros r [|i] x; simpl.
  - destruct (r =? 0); reflexivity.
  - rewrite andb_comm. reflexivity.
  - destruct r; reflexivity.
  - destruct r as [|r]; [reflexivity|]. cbn [Nat.eqb]. rewrite IH.
    destruct (r =? i); reflexivity.
Qed.

Section D.
Context (expf : Q -> Q) (m : mode) (fit : list Q -> Q) (p : p2_par).
Local Notation ds := (p2_dims p).
Hypothesis W : wf_dims ds.
Hypothesis D : discrete_ok (p2_method p) ds.
Hypothesis N : 4 < p2_npop p.

Lemma get_feasible h r : Forall (feasible ds) h -> r < length h -> feasible ds (h_get h r).
Proof. intros F H. unfold h_get. rewrite Forall_forall in F. apply F, nth_In; auto. Qed.

Lemma hde_one_ok ngen (pop : list ref) h j dr : length pop = p2_npop p -> Forall (fun r => r < length h) pop -> Forall (feasible ds) h -> j < p2_npop p ->
  exists h', hde_one expf p ngen pop h (j, dr) = Some (h', length h) /\ length h' = S (length h) /\ Forall (feasible ds) h' /\
    (keeps_ints (p2_method p) ds -> old_kept h h').
Proof.
  intros L R F Hj. unfold hde_one.
  destruct (sample_total [dd_1 dr; dd_2 dr; dd_3 dr] (filter (fun i => negb (i =? j)) (seq 0 (p2_npop p)))) as (idx & E).
  { rewrite candidates_length by auto. simpl. lia. }
  rewrite E. cbn [bind]. pose proof (sample_perm _ _ _ E) as (Li & _).
  destruct idx as [|i1 [|i2 [|i3 [|? ?]]]]; try discriminate Li.
  pose proof (sample_incl _ _ _ E) as Inc.
  assert (B : forall i, In i [i1; i2; i3] -> i < p2_npop p) by (intros i Hi; apply Inc in Hi; apply in_candidates in Hi; tauto).
  assert (G : forall i, i < p2_npop p -> exists r : ref, nth_error pop i = Some r /\ r < length h /\ feasible ds (h_get h r)).
  { intros i Hi. destruct (nth_error pop i) as [r|] eqn:Er; [|apply nth_error_None in Er; lia].
    exists r. split; auto. rewrite Forall_forall in R. pose proof (R r (nth_error_In _ _ Er)). split; auto. apply get_feasible; auto. }
  destruct (G i1) as (r1 & E1 & H1 & F1); [apply B; simpl; auto|].
  destruct (G i2) as (r2 & E2 & H2 & F2); [apply B; simpl; auto|].
  destruct (G i3) as (r3 & E3 & H3 & F3); [apply B; simpl; auto|].
  destruct (G j Hj) as (rt & Et & Ht & Ft). cbn beta iota. rewrite E1, E2, E3, Et. cbn [bind].
  pose proof (donor_inside (par_de p) W _ _ _ F1 F2 F3) as Din. cbn [par_de de_dims de_F] in Din.
  change (de_bounds (par_de p)) with (bnds ds) in Din.
  match goal with |- context [recombine _ _ 0 ?d _] => set (donor := d) in * end.
  assert (Ld : length donor = length (h_get h rt)).
  { rewrite (inside_length _ _ Din), dim_bounds_length. symmetry. apply feasible_length; auto. }
  destruct (recombine_spec (p2_CR p) (dd_cr dr) (h_get h rt) donor 0 Ld) as (trial & Etr & _).
  rewrite Etr. cbn [bind]. pose proof (recombine_inside _ _ _ _ _ _ _ Din (feasible_inside _ _ Ft) Etr) as Tin.
  destruct D as (Dm & DR).
  match goal with |- context [ensure_discrete _ ?b _ _ _ _ (h_get h rt)] => set (bb := b) end.
  destruct (ensure_discrete_ok expf bb (p2_method p) (dd_tr dr) (dd_tp dr) ds (h_get h rt) Dm W DR (feasible_inside _ _ Ft)) as (xt & Ex & Fx & _).
  destruct (ensure_discrete_ok expf bb (p2_method p) (dd_vr dr) (dd_vp dr) ds trial Dm W DR Tin) as (v & Ev & Fv & _).
  rewrite Ex. cbn [bind]. rewrite Ev. cbn [bind]. eexists. split; [reflexivity|].
  split; [rewrite app_length, set_nth_length; simpl; lia|]. split.
  - apply Forall_app. split; [|auto]. apply Forall_forall. intros y Hy. apply set_nth_in in Hy. destruct Hy as [->|Hy]; auto.
    rewrite Forall_forall in F. auto.
  - intros K r Hr. unfold h_get at 2. rewrite app_nth1 by (rewrite set_nth_length; auto). fold (h_get (set_nth h rt xt) r).
    rewrite get_set. destruct ((r =? rt) && (rt <? length h)) eqn:B1; [|apply veq_refl].
    apply andb_true_iff in B1. destruct B1 as (B1 & _). apply Nat.eqb_eq in B1. subst r.
    destruct (ensure_keeps expf bb (p2_method p) (dd_tr dr) (dd_tp dr) ds (h_get h rt) K W (feasible_inside _ _ Ft)) as (x2 & E2' & _ & V).
    rewrite Ex in E2'. inversion E2'; subst x2. apply veq_sym. auto.
Qed.

Lemma hde_iter ngen (pop : list ref) drs : length pop = p2_npop p -> forall js h, Forall (fun r => r < length h) pop -> Forall (feasible ds) h ->
  (forall j, In j js -> j < p2_npop p) ->
  exists h' vs, iter_steps (hde_one expf p ngen pop) h (map (fun j => (j, drs j)) js) = Some (h', vs) /\
    length vs = length js /\ length h <= length h' /\ Forall (fun r => r < length h') vs /\ Forall (feasible ds) h' /\
    (keeps_ints (p2_method p) ds -> old_kept h h').
Proof.
  intros L. induction js as [|j js IH]; intros h R F Hj; cbn [map iter_steps].
  - exists h, []. split; auto. split; auto. split; auto. split; auto. split; auto. intros _. apply old_refl.
  - destruct (hde_one_ok ngen pop h j (drs j) L R F) as (h1 & E1 & L1 & F1 & K1). { apply Hj; left; auto. }
    rewrite E1. destruct (IH h1) as (h2 & vs & E2 & Lv & L2 & R2 & F2 & K2); auto.
    { eapply Forall_impl; [|exact R]. simpl. intros r Hr. lia. } { intros i Hi. apply Hj. right; auto. }
    rewrite E2. exists h2, (length h :: vs). split; auto. split; [simpl; lia|]. split; [lia|]. split.
    { constructor; auto. lia. } split; auto.
    intros K. eapply old_trans; [|apply K1; auto|apply K2; auto]. lia.
Qed.

Lemma score_feasible x : feasible ds x -> p2_arg p x = x /\ p2_score m fit p x = p2_F1 m fit x.
Proof.
  intros F. assert (E : p2_arg p x = x). { unfold p2_arg. change (bnds ds) with (dim_bounds ds). apply clip_id; auto. apply feasible_inside; auto. }
  split; auto. unfold p2_score. rewrite E. reflexivity.
Qed.

Definition hde_inv (h0 : heap) (st : hde_state) : Prop :=
  length (hd_pop st) = p2_npop p /\ length h0 <= length (hd_heap st) /\ Forall (feasible ds) (hd_heap st) /\
  Forall (fun r => r < length (hd_heap st)) (hd_pop st) /\ Forall (feasible ds) (hd_seen st) /\
  (keeps_ints (p2_method p) ds -> old_kept h0 (hd_heap st)).
Definition hde_scored (st : hde_state) : Prop :=
  length (hd_fits st) = length (hd_pop st) /\
  Forall2 (fun r q => q = p2_F1 m fit (h_get (hd_heap st) r) /\ In (h_get (hd_heap st) r) (hd_seen st)) (hd_pop st) (hd_fits st).

Lemma Forall2_map2 {A B C E} (R : C -> E -> Prop) (f : A -> B -> C) (g : A -> B -> E) : forall l r,
  (forall a b, In a l -> In b r -> R (f a b) (g a b)) -> Forall2 R (map2 f l r) (map2 g l r).
Proof.
  induction l as [|a l IH]; intros [|b r] H; simpl; constructor.
  - apply H; left; auto.
  - apply IH. intros a0 b0 Ha Hb. apply H; right; auto.
Qed.
Lemma map2_length {A B C} (f : A -> B -> C) : forall l r, length l = length r -> length (map2 f l r) = length l.
Proof. induction l; intros [|b r] H; simpl in *; auto; discriminate. Qed.
Lemma map2_In {A B C} (f : A -> B -> C) : forall l r c, In c (map2 f l r) -> exists a b, In a l /\ In b r /\ c = f a b.
Proof.
  induction l as [|a l IH]; intros [|b r] c H; simpl in H; try contradiction.
  destruct H as [<-|H]; [exists a, b; simpl; auto|]. destruct (IH _ _ H) as (a' & b' & Ha & Hb & E). exists a', b'. simpl; auto.
Qed.

Lemma hde_gen_ok h0 ngen drs g st : hde_inv h0 st -> exists st', hde_gen expf m fit p ngen drs g st = Some st' /\ hde_inv h0 st' /\ hde_scored st'.
Proof.
  intros (L & L0 & F & R & Sn & K). unfold hde_gen.
  destruct (hde_iter ngen (hd_pop st) (drs g) L (seq 0 (p2_npop p)) (hd_heap st) R F) as (h & vs & E & Lv & L1 & Rv & F1 & K1).
  { intros j Hj. apply in_seq in Hj. lia. }
  rewrite E. cbn [bind]. eexists. split; [reflexivity|]. rewrite seq_length in Lv.
  assert (R' : forall r, In r (hd_pop st) -> r < length h). { intros r Hr. rewrite Forall_forall in R. specialize (R r Hr). simpl in R. lia. }
  rewrite Forall_forall in Rv. split.
  - unfold hde_inv. cbn [hd_pop hd_heap hd_seen hd_fits]. split; [rewrite map2_length; lia|]. split; [lia|]. split; auto. split.
    + apply Forall_forall. intros r Hr. apply map2_In in Hr. destruct Hr as (a & b & Ha & Hb & ->).
      destruct (Qltb _ _); auto.
    + split. { apply Forall_app. split; auto. apply Forall_forall. intros x Hx. apply in_map_iff in Hx. destruct Hx as (r & <- & Hr).
        apply in_app_iff in Hr. assert (r < length h) by (destruct Hr; auto).
        destruct (score_feasible (h_get h r)) as (-> & _); apply get_feasible; auto. }
      intros Kk. eapply old_trans; [exact L0|auto|apply K1; auto].
  - unfold hde_scored. cbn [hd_pop hd_heap hd_seen hd_fits]. split; [rewrite !map2_length; lia|].
    apply Forall2_map2. intros a b Ha Hb.
    assert (In_seen : forall r, In r (vs ++ hd_pop st) -> r < length h -> In (h_get h r) (hd_seen st ++ map (fun r => p2_arg p (h_get h r)) (vs ++ hd_pop st))).
    { intros r Hr Hl. apply in_app_iff. right. apply in_map_iff. exists r. split; auto. apply score_feasible, get_feasible; auto. }
    destruct (Qltb _ _).
    + split; [apply score_feasible, get_feasible; auto|]. apply In_seen; auto. apply in_app_iff; auto.
    + split; [apply score_feasible, get_feasible; auto|]. apply In_seen; auto. apply in_app_iff; auto.
Qed.

(** What each of the three methods delivers. *)
Definition delivers (n : nat) (h h' : heap) (pop : list (ref * Q)) (s : list (list Q)) : Prop :=
  length pop = n /\ length h <= length h' /\ Forall (feasible ds) h' /\ Forall (feasible ds) s /\
  Forall (fun rq => fst rq < length h' /\ (snd rq == p2_F1 m fit (h_get h' (fst rq)))%Q /\ In (h_get h' (fst rq)) s) pop /\
  (no_sharing_trouble p -> old_kept h h').

Lemma combine_Forall2 {A B} (R : A -> B -> Prop) l r : Forall2 R l r -> Forall (fun ab => R (fst ab) (snd ab)) (combine l r).
Proof. induction 1; simpl; constructor; auto. Qed.

Lemma seq_get h vs : forall k, k < length vs -> h_get (h ++ vs) (length h + k) = nth k vs [].
Proof. intros k Hk. unfold h_get. rewrite app_nth2 by lia. f_equal. lia. Qed.

Lemma new_Forall2 (P : list Q -> Q -> Prop) h vs fs : Forall2 P vs fs ->
  Forall2 (fun r q => r < length (h ++ vs) /\ P (h_get (h ++ vs) r) q) (seq (length h) (length vs)) fs.
Proof.
  revert h fs. induction vs as [|v vs IH]; intros h fs H; inversion H; subst; cbn [seq length]; constructor.
  - split; [rewrite app_length; simpl; lia|]. replace (length h) with (length h + 0) at 1 by lia. rewrite seq_get by (simpl; lia). auto.
  - specialize (IH (h ++ [v]) _ H4). replace (length (h ++ [v])) with (S (length h)) in IH by (rewrite app_length; simpl; lia). rewrite <- app_assoc in IH. exact IH.
Qed.

Lemma de_mod_ok ngen drs h (x0 : list ref) : 1 <= ngen -> length x0 = p2_npop p -> Forall (fun r => r < length h) x0 -> Forall (feasible ds) h ->
  exists h' pop s, de_mod expf m fit p ngen drs h x0 = Some (h', pop, s) /\ delivers (p2_npop p) h h' pop s.
Proof.
  intros Hn L R F. unfold de_mod. rewrite L, Nat.eqb_refl. cbn [negb].
  assert (I0 : hde_inv h (HdeSt h x0 [] [])).
  { unfold hde_inv; cbn [hd_pop hd_heap hd_seen]. split; auto. split; auto. split; auto. split; auto. split; auto. intros _. apply old_refl. }
  destruct (gens_total (hde_gen expf m fit p ngen drs) (hde_inv h)) with (todo := ngen) (g := 0) (s := HdeSt h x0 [] []) as (st & E & I); auto.
  { intros g s Hs. destruct (hde_gen_ok h ngen drs g s Hs) as (s' & E & I & _). eauto. }
  rewrite E. cbn [bind].
  assert (Sc : hde_scored st).
  { destruct ngen as [|k]; [lia|]. clear Hn.
    assert (Gn : forall todo g s s', hde_inv h s -> gens (hde_gen expf m fit p (S k) drs) g (S todo) s = Some s' -> hde_scored s').
    { induction todo as [|t IH]; intros g s s' Hs Hg.
      - cbn [gens] in Hg. apply bind_Some in Hg. destruct Hg as (s1 & E1 & Hg). inversion Hg; subst.
        destruct (hde_gen_ok h (S k) drs g s Hs) as (s2 & E2 & _ & Sc). rewrite E1 in E2. inversion E2; subst. auto.
      - remember (S t) as t' eqn:Et. cbn [gens] in Hg. apply bind_Some in Hg. destruct Hg as (s1 & E1 & Hg). subst t'.
        destruct (hde_gen_ok h (S k) drs g s Hs) as (s2 & E2 & I2 & _). rewrite E1 in E2. injection E2 as E2. subst s2. exact (IH _ _ _ I2 Hg). }
    exact (Gn _ _ _ _ I0 E). }
  destruct I as (Lp & L0 & Fh & Rp & Sn & K). destruct Sc as (Lf & Sc).
  destruct (p2_proc p) eqn:P.
  - unfold h_new. rewrite map_length. do 3 eexists. split; [reflexivity|].
    set (vs := map (h_get (hd_heap st)) (hd_pop st)).
    assert (Q2 : Forall2 (fun x q => q = p2_F1 m fit x /\ In x (hd_seen st)) vs (hd_fits st)).
    { unfold vs. clear - Sc. induction Sc; simpl; constructor; auto. }
    unfold delivers. split; [rewrite combine_length, seq_length; lia|]. split; [rewrite app_length; lia|].
    split. { apply Forall_app. split; auto. apply Forall_forall. intros x Hx. unfold vs in Hx. apply in_map_iff in Hx. destruct Hx as (r & <- & Hr).
      apply get_feasible; auto. rewrite Forall_forall in Rp. auto. }
    split; auto. split; [|intros _; apply old_app].
    pose proof (combine_Forall2 _ _ _ (new_Forall2 _ h _ _ Q2)) as G. assert (Lvs : length vs = length (hd_pop st)) by (unfold vs; apply map_length). rewrite Lvs in G.
    eapply Forall_impl; [|exact G]. cbn beta. intros [r q] (A & B & C). cbn [fst snd] in *. subst q. split; auto. split; auto. reflexivity.
  - do 3 eexists. split; [reflexivity|]. unfold delivers. split; [rewrite combine_length; lia|]. split; auto. split; auto. split; auto. split.
    + assert (G : Forall2 (fun r q => r < length (hd_heap st) /\ (q == p2_F1 m fit (h_get (hd_heap st) r))%Q /\ In (h_get (hd_heap st) r) (hd_seen st)) (hd_pop st) (hd_fits st)).
      { clear - Sc Rp. induction Sc as [|r q l l' (A & B) Sc IH]; constructor; inversion Rp; subst; auto. split; auto. split; auto. reflexivity. }
      apply combine_Forall2 in G. exact G.
    + intros [H|H]; [congruence|auto].
Qed.
End D.
