(** The migration phase, one cycle, the whole run. *)
From Coq Require Import List Arith ZArith QArith Bool Permutation Sorted Lia Lqa.
From Verif Require Import Base BaseFacts Space_Model Opt_Model Opt_Facts Opt_Facts2 Opt_Spec AEO_Model AEO_Spec AEO_Sort AEO_Matrix AEO_Proofs.
Import ListNotations.
Open Scope nat_scope.

Definition good (p : apop) : Prop := in_step p /\ known_first p /\ ap_log p <> [].
Definition fresh (p : apop) : Prop := ap_n p = length (ap_mem p) /\ ap_log p = [].
Definition sane (p : apop) : Prop := good p \/ fresh p.
Definition same_meta (b a : apop) : Prop := ap_log a = ap_log b /\ ap_alg a = ap_alg b /\ ap_nc a = ap_nc b.

Lemma nth_error_combine {A B} (a : list A) : forall (b : list B) i x y, nth_error a i = Some x -> nth_error b i = Some y ->
  nth_error (combine a b) i = Some (x, y).
Proof. induction a as [|u a IH]; intros [|v b] [|i] x y H1 H2; cbn in *; try discriminate; [congruence | auto]. Qed.
Lemma F2_nth {A B} (R : A -> B -> Prop) l : forall m, length m = length l ->
  (forall i x y, nth_error l i = Some x -> nth_error m i = Some y -> R x y) -> Forall2 R l m.
Proof.
  induction l as [|x l IH]; intros [|y m] H K; try discriminate; constructor; [exact (K 0 x y eq_refl eq_refl)|].
  apply IH; [cbn in H; lia|]. intros i. exact (K (S i)).
Qed.
Lemma F2_nth_inv {A B} (R : A -> B -> Prop) l m : Forall2 R l m -> forall i x y, nth_error l i = Some x -> nth_error m i = Some y -> R x y.
Proof. induction 1; intros [|i] u v H1 H2; cbn in *; try discriminate; [congruence | eauto]. Qed.

Section Facts.
Context (pw : Q -> Q -> Q) (pa : apar) (ev : strategies) (dr : adraw) (Ncyc : nat).

Lemma migrate_ok c eis dest ps ps' : draws_ok dr -> Forall good ps -> length dest = length ps -> dest <> [] ->
  migrate pa dr Ncyc c eis dest ps = Some ps' -> migration ps ps' /\ Forall good ps' /\ Forall2 same_meta ps ps'.
Proof.
  intros Hd Hg Hlen Hdne H. unfold migrate in H. apply bind_Some in H as (ex & E & H). injection H as <-.
  destruct (traverse_spec _ _ _ _ E) as [L N].
  set (pool := ad_shuffle dr c (concat (map fst ex))). set (al := ad_allot dr c (length pool) dest).
  destruct (dk_allot _ Hd c (length pool) dest Hdne) as [A1 A2]. fold al in A1, A2.
  rewrite hand_out_chunks by (rewrite map_length; lia).
  set (res := map _ _).
  assert (Lr : length res = length ps) by (unfold res; rewrite map_length, combine_length, chunks_length, map_length; lia).
  assert (P : forall i b a, nth_error ps i = Some b -> nth_error res i = Some a ->
              moved b a (nth i (map fst ex) []) (nth i (chunks al pool) []) /\ good a /\ same_meta b a).
  { intros i b a Hb Ha. destruct (N i b Hb) as ([out p'] & Hex & Hf). cbn in Hf.
    rewrite Forall_forall in Hg. destruct (Hg b (nth_error_In _ _ Hb)) as (Hs & Hk & Hlog).
    destruct (export_ok _ _ _ _ _ _ _ Hs Hk Hf) as (Hs' & Hk' & M1 & M2 & M3 & stay & gone & Q1 & Q2 & Q3 & _).
    assert (Hi : i < length ps) by (apply nth_error_Some; congruence).
    destruct (nth_error (chunks al pool) i) as [xs|] eqn:Ex.
    2:{ apply nth_error_None in Ex. rewrite chunks_length in Ex. lia. }
    assert (Ea : a = receive xs p').
    { unfold res in Ha. erewrite map_nth_error in Ha; [|apply nth_error_combine; [exact Ex | apply map_nth_error, Hex]].
      cbn in Ha. congruence. }
    subst a. destruct (receive_ok xs p' Hs' Hk') as (R1 & R2 & R3).
    split; [|split].
    - exists stay, gone, (pairs (receive xs p')). split; [exact Q1|]. split; [|split].
      + rewrite Q2. symmetry. apply nth_error_nth. apply (map_nth_error fst) in Hex. exact Hex.
      + reflexivity.
      + rewrite R3, (nth_error_nth _ _ [] Ex). apply Forall2_app; auto.
        clear. induction xs; constructor; auto using psame_refl.
    - split; [auto|]. split; [auto|]. cbn. rewrite M1. exact Hlog.
    - repeat split; cbn; auto. }
  split; [|split].
  - exists (map fst ex), (chunks al pool). rewrite map_length, chunks_length.
    split; [lia|]. split; [lia|]. split; [exact Lr|]. split.
    + rewrite chunks_concat by exact A2. symmetry. apply (dk_shuffle _ Hd).
    + intros i b a Hb Ha. apply (P i b a Hb Ha).
  - apply Forall_forall. intros a Ha. apply In_nth_error in Ha as (i & Ha).
    assert (Hi : i < length ps) by (rewrite <- Lr; apply nth_error_Some; congruence).
    destruct (nth_error ps i) as [b|] eqn:Hb; [|apply nth_error_None in Hb; lia]. apply (P i b a Hb Ha).
  - apply F2_nth; [exact Lr|]. intros i b a Hb Ha. apply (P i b a Hb Ha).
Qed.

(** What a migration means for the individuals. *)
Lemma moved_members b a l r : in_step b -> in_step a -> moved b a l r -> Permutation (ap_mem b ++ r) (ap_mem a ++ l).
Proof.
  intros [Hb _] [Ha _] (stay & gone & news & H1 & H2 & H3 & H4).
  apply (Permutation_map fst) in H1, H3. unfold pairs in H1, H3. rewrite combine_fst in H1, H3 by auto.
  assert (E : map fst news = map fst (stay ++ map (fun x => (x, NaN)) r)) by (clear -H4; induction H4 as [|x y l m [Hx _] _ IH]; cbn; congruence).
  rewrite H1, H3, E, !map_app, H2, map_map. cbn. rewrite map_id, <- !app_assoc. apply Permutation_app_head, Permutation_app_comm.
Qed.
Lemma moved_all before : forall after leave arrive, length leave = length before -> length arrive = length before -> length after = length before ->
  Forall in_step before -> Forall in_step after ->
  (forall i b a, nth_error before i = Some b -> nth_error after i = Some a -> moved b a (nth i leave []) (nth i arrive [])) ->
  Permutation (individuals before ++ concat arrive) (individuals after ++ concat leave).
Proof.
  induction before as [|b bs IH]; intros [|a as_] [|l ls] [|r rs] L1 L2 L3 F1 F2 H; try discriminate; [reflexivity|].
  inversion F1; inversion F2; subst. unfold individuals in *. cbn [map concat].
  assert (G := IH as_ ls rs ltac:(cbn in *; lia) ltac:(cbn in *; lia) ltac:(cbn in *; lia) H3 H7 (fun i => H (S i))).
  assert (G0 := moved_members b a l r H2 H6 (H 0 b a eq_refl eq_refl)).
  rewrite <- !app_assoc. 
  transitivity ((ap_mem b ++ r) ++ concat (map ap_mem bs) ++ concat rs).
  { rewrite <- !app_assoc. apply Permutation_app_head. rewrite !app_assoc. apply Permutation_app_tail, Permutation_app_comm. }
  rewrite G0, G. rewrite <- !app_assoc. apply Permutation_app_head. rewrite !app_assoc. apply Permutation_app_tail, Permutation_app_comm.
Qed.
Lemma migration_conserves before after : migration before after -> Forall in_step before -> Forall in_step after ->
  Permutation (individuals before) (individuals after).
Proof.
  intros (l & r & L1 & L2 & L3 & HP & H) F1 F2. pose proof (moved_all _ _ _ _ L1 L2 L3 F1 F2 H) as G.
  rewrite HP in G. apply Permutation_app_inv_r in G. exact G.
Qed.
Lemma own_pairs fit p : length (ap_fit p) = length (ap_mem p) -> (own_values fit p <-> Forall (fun xf => own_value fit (fst xf) (snd xf)) (pairs p)).
Proof.
  unfold own_values, pairs. generalize (ap_mem p), (ap_fit p). intros a. induction a as [|x a IH]; intros [|f b] H; try discriminate; cbn.
  - split; constructor.
  - split; intros G; inversion G; subst; constructor; auto; apply IH; auto.
Qed.
Lemma moved_own fit b a l r : in_step b -> in_step a -> moved b a l r -> own_values fit b -> own_values fit a.
Proof.
  intros [Hb _] [Ha _] (stay & gone & news & H1 & H2 & H3 & H4) Ho.
  apply own_pairs in Ho; auto. apply own_pairs; auto. rewrite H1 in Ho. rewrite H3. apply Forall_app in Ho as [Ho _].
  assert (G : Forall (fun xf => own_value fit (fst xf) (snd xf)) (stay ++ map (fun x => (x, NaN)) r)).
  { apply Forall_app. split; auto. apply Forall_map, Forall_forall. cbn. auto. }
  clear -H4 G. induction H4 as [|x y l m [Hx Hf] _ IH]; constructor; inversion G as [|? ? G1 G2]; subst; auto.
  rewrite Hx. destruct (snd x), (snd y); cbn in *; auto; try contradiction. rewrite Hf. exact G1.
Qed.
Lemma migration_own fit before after : migration before after -> Forall in_step before -> Forall in_step after ->
  Forall (own_values fit) before -> Forall (own_values fit) after.
Proof.
  intros (l & r & L1 & L2 & L3 & HP & H) F1 F2 Ho. rewrite Forall_forall in *. intros a Ha.
  apply In_nth_error in Ha as (i & Ha). assert (Hi : i < length before) by (rewrite <- L3; apply nth_error_Some; congruence).
  destruct (nth_error before i) as [b|] eqn:Hb; [|apply nth_error_None in Hb; lia].
  eapply moved_own; eauto using nth_error_In.
Qed.

(** ** Evolution phase *)
Lemma evolute_ok fit gpc sizes res p p' seen : sane p -> pop_evolute gpc sizes res p = Some (p', seen) ->
  good p' /\ length (ap_mem p') = length (ap_mem p) /\ ap_alg p' = ap_alg p /\
  ((forall last s, res = Some (last, s) -> Forall (fun xf => snd xf == fit (fst xf))%Q last) -> (good p -> own_values fit p) -> own_values fit p').
Proof.
  intros Hs H. unfold pop_evolute in H.
  assert (Hn : ap_n p = length (ap_mem p)) by (destruct Hs as [[[_ ?] _]|[? _]]; auto).
  destruct (ready (ap_alg p) (length (ap_mem p))) eqn:Er; cbn [negb] in H.
  - destruct (sizes =? 1); [discriminate|]. apply bind_Some in H as ([last s] & E & H). apply bind_Some in H as (f & Ef & H).
    cbn [ap_mem ap_n] in H. destruct (length (map fst last) =? ap_n p) eqn:El; [|discriminate]. apply Nat.eqb_eq in El.
    injection H as <- <-. split; [split; [|split]|split; [|split]]; cbn.
    + split; cbn; rewrite ?map_length in *; auto.
    + unfold known_first. cbn. clear. induction last as [|x l IH]; cbn; constructor; auto.
      apply Forall_forall. intros y Hy. apply in_map_iff in Hy as (? & <- & _). exact I.
    + destruct (ap_log p); discriminate.
    + lia.
    + reflexivity.
    + intros Hh _. specialize (Hh last s E). unfold own_values. cbn. clear -Hh. induction Hh; cbn; constructor; auto.
  - destruct (ap_log p) as [|f fs] eqn:El; [discriminate|]. cbn [ap_mem ap_n] in H.
    destruct (length (ap_mem p) =? ap_n p) eqn:E; [|discriminate]. injection H as <- <-.
    destruct Hs as [Hg|[_ Hf]]; [|congruence]. pose proof Hg as ([G1 G2] & G3 & G4).
    split; [split; [|split]|split; [|split]]; cbn; auto; try discriminate.
    split; cbn; auto.
Qed.
Lemma evolve_all_ok fit c ps evd : Forall sane ps -> evolve_all pa ev Ncyc c ps = Some evd ->
  Forall good (map fst evd) /\ Forall2 (fun p p' => length (ap_mem p') = length (ap_mem p) /\ ap_alg p' = ap_alg p) ps (map fst evd) /\
  (honest fit ev -> Forall (fun p => good p -> own_values fit p) ps -> Forall (own_values fit) (map fst evd)).
Proof.
  intros Hs H. unfold evolve_all in H. destruct (traverse_spec _ _ _ _ H) as [L N].
  assert (P : forall i p x, nth_error ps i = Some p -> nth_error evd i = Some x -> pop_evolute (pa_gpc pa) (Ncyc * pa_gpc pa) (ev c i (ap_mem p)) p = Some x).
  { intros i p x Hp Hx. destruct (N i p Hp) as (y & Hy & Hf). cbn in Hf. congruence. }
  assert (Ix : forall x, In x evd -> exists i p, nth_error ps i = Some p /\ nth_error evd i = Some x).
  { intros x Hx. apply In_nth_error in Hx as (i & Hx). exists i.
    assert (Hi : i < length ps) by (rewrite <- L; apply nth_error_Some; congruence).
    destruct (nth_error ps i) as [p|] eqn:Hp; [eauto | apply nth_error_None in Hp; lia]. }
  rewrite Forall_forall in Hs. split; [|split].
  - apply Forall_map, Forall_forall. intros [p' s] Hx. destruct (Ix _ Hx) as (i & p & Hp & Hx'). 
    apply (evolute_ok fit _ _ _ _ _ _ (Hs p (nth_error_In _ _ Hp)) (P _ _ _ Hp Hx')).
  - apply F2_nth; [rewrite map_length; auto|]. intros i p p' Hp Hx.
    destruct (nth_error evd i) as [[q s]|] eqn:Ex; [|apply nth_error_None in Ex; assert (i < length ps) by (apply nth_error_Some; congruence); lia].
    rewrite (map_nth_error fst i evd Ex) in Hx. cbn in Hx. injection Hx as <-.
    destruct (evolute_ok fit _ _ _ _ _ _ (Hs p (nth_error_In _ _ Hp)) (P _ _ _ Hp Ex)) as (_ & H1 & H2 & _). auto.
  - intros Hh Ho. apply Forall_map, Forall_forall. intros [p' s] Hx. destruct (Ix _ Hx) as (i & p & Hp & Hx').
    destruct (evolute_ok fit _ _ _ _ _ _ (Hs p (nth_error_In _ _ Hp)) (P _ _ _ Hp Hx')) as (_ & _ & _ & K). apply K.
    + intros last s' E. exact (Hh _ _ _ _ _ E).
    + rewrite Forall_forall in Ho. exact (Ho p (nth_error_In _ _ Hp)).
Qed.

(** ** One cycle *)
Lemma omap_spec {A B} (f : A -> option B) l l' : omap f l = Some l' -> Forall2 (fun a b => f a = Some b) l l'.
Proof. unfold omap. apply traverse_Forall2. auto. Qed.
Lemma strength_prob imp burden fs dfs hi lo p s ps :
  omap fitness ps = Some fs -> omap dfitness ps = Some dfs -> In p ps ->
  lmax (if imp : bool then dfs else fs) = Some hi -> lmin (if imp then dfs else fs) = Some lo -> ~ (hi == lo)%Q ->
  strength imp burden hi lo p = Some s -> (0 <= s)%Q.
Proof.
  intros H1 H2 Hp Hhi Hlo Hne H. unfold strength in H. apply bind_Some in H as (v & Ev & H). injection H as <-.
  assert (Hv : In v (if imp then dfs else fs)).
  { destruct imp; [clear H1; rename H2 into H1 | clear H2]; apply omap_spec in H1; clear -H1 Hp Ev;
    (induction H1 as [|a b l m Hab _ IH]; [contradiction|]; destruct Hp as [->|Hp]; [left; congruence | right; auto]). }
  apply lmax_spec in Hhi as [_ Hhi]. apply lmin_spec in Hlo as [Hlo' Hlo].
  assert (lo <= hi)%Q by auto. assert (Hlt : (lo < hi)%Q) by (apply Qle_lteq in H as [?|X]; auto; exfalso; apply Hne; symmetry; exact X).
  assert (N : (0 <= (v - hi) / (lo - hi))%Q).
  { setoid_replace ((v - hi) / (lo - hi))%Q with ((hi - v) / (hi - lo))%Q by (field; lra).
    specialize (Hhi v Hv). apply Qle_shift_div_l; lra. }
  destruct burden; auto. assert (Hq := qn_nonneg (ap_nc p)). unfold qn in Hq. apply Qle_shift_div_l; lra.
Qed.
Lemma strengths_nonneg fs dfs hi lo hid lod ps imp burden a ss : power_ok pw ->
  omap fitness ps = Some fs -> omap dfitness ps = Some dfs ->
  lmax fs = Some hi -> lmin fs = Some lo -> lmax dfs = Some hid -> lmin dfs = Some lod ->
  (if imp : bool then Qeq_bool hid lod else Qeq_bool hi lo) = false ->
  strengths pw imp burden hi lo hid lod a ps = Some ss -> length ss = length ps /\ Forall (fun x => 0 <= x)%Q ss.
Proof.
  intros Hpw H1 H2 Hhi Hlo Hhid Hlod Hfl H. unfold strengths in H. apply omap_spec in H.
  split; [symmetry; eapply Forall2_length; eauto|].
  assert (G : forall p, In p ps -> forall s, (if imp then strength true burden hid lod p else strength false burden hi lo p) = Some s -> (0 <= s)%Q).
  { intros p Hp s Hs. destruct imp; [eapply (strength_prob true); eauto | eapply (strength_prob false); eauto];
    intros X; apply Qeq_bool_iff in X; congruence. }
  clear -H G Hpw. induction H as [|p s l m Hps _ IH]; constructor.
  - apply bind_Some in Hps as (v & Ev & Hs). injection Hs as <-. apply Hpw. apply (G p); [now left | exact Ev].
  - apply IH. intros q Hq. apply G. now right.
Qed.
Lemma cycle_ok c ps ps' lg seen : aeo_cycle pw pa ev dr Ncyc c ps = Some (ps', lg, seen) ->
  exists evd eis, evolve_all pa ev Ncyc c ps = Some evd /\ cl_before lg = map fst evd /\ cl_after lg = ps' /\
    seen = concat (map snd evd) /\ length (cl_dest lg) = length (map fst evd) /\ cl_dest lg <> [] /\
    migrate pa dr Ncyc c eis (cl_dest lg) (map fst evd) = Some ps' /\ (power_ok pw -> probabilities lg).
Proof.
  intros H. unfold aeo_cycle in H. apply bind_Some in H as (evd & E & H). exists evd.
  set (bs := map fst evd) in *.
  apply bind_Some in H as (fs & Hfs & H). apply bind_Some in H as (dfs & Hdfs & H).
  apply bind_Some in H as (hi & Hhi & H). apply bind_Some in H as (lo & Hlo & H).
  apply bind_Some in H as (hid & Hhid & H). apply bind_Some in H as (lod & Hlod & H).
  apply bind_Some in H as (alpha & Ha & H). apply bind_Some in H as ([[[mig strs] wts] eis] & Hex & H).
  apply bind_Some in H as (beta & Hb & H). apply bind_Some in H as (sd & Hsd & H).
  apply bind_Some in H as (dest & Hdest & H). apply bind_Some in H as (qs & Hm & H). injection H as <- <- <-.
  exists eis. split; [auto|]. cbn [cl_before cl_after cl_dest].
  assert (Hld : length dest = length bs).
  { unfold scaled in Hdest. destruct (Qeq_bool (qsum sd) 0); [discriminate|]. injection Hdest as <-. rewrite map_length.
    destruct (if pa_bimp pa then _ else _); [injection Hsd as <-; apply map_length|].
    unfold strengths in Hsd. apply omap_spec in Hsd. symmetry. eapply Forall2_length; eauto. }
  do 4 (split; [auto|]). split.
  { intros X. subst dest. destruct bs; [|discriminate]. cbn in Hfs. injection Hfs as <-. discriminate. }
  split; [auto|]. intros Hpw.
  assert (Hdd : distribution dest).
  { destruct (if pa_bimp pa then _ else _) eqn:Efl.
    - injection Hsd as <-. refine (proj2 (scaled_ok _ _ _ Hdest)). apply Forall_map, Forall_forall. intros. lra.
    - destruct (strengths_nonneg fs dfs hi lo hid lod bs _ _ _ _ Hpw Hfs Hdfs Hhi Hlo Hhid Hlod Efl Hsd) as [_ Hnn].
      exact (proj2 (scaled_ok _ _ Hnn Hdest)). }
  assert (Hw : Forall prob wts /\ length wts = length bs /\ (mig = true -> distribution strs /\ length strs = length bs)).
  { destruct (if pa_gimp pa then _ else _) eqn:Efl.
    - injection Hex as <- <- <- <-. split; [apply Forall_map, Forall_forall; intros; split; lra|]. split; [apply map_length | discriminate].
    - apply bind_Some in Hex as (ss & Hss & Hex). apply bind_Some in Hex as (sc & Hsc & Hex). apply bind_Some in Hex as (qt & Hq & Hex).
      destruct (forallb _ _) eqn:Eb; [|discriminate]. injection Hex as <- <- <- <-.
      destruct (strengths_nonneg fs dfs hi lo hid lod bs _ _ _ _ Hpw Hfs Hdfs Hhi Hlo Hhid Hlod Efl Hss) as [Hl Hnn].
      destruct (scaled_ok _ _ Hnn Hsc) as [Hl' Hdi].
      split; [|split; [rewrite map_length; lia | intros _; split; [auto | lia]]].
      apply Forall_forall. intros w Hw. rewrite forallb_forall in Eb. specialize (Eb w Hw). apply andb_true_iff in Eb as [E1 E2].
      apply Qle_bool_iff in E1, E2. split; auto. }
  destruct Hw as (W1 & W2 & W3). unfold probabilities. cbn [cl_before cl_after cl_mig cl_str cl_wts cl_dest cl_n cl_M].
  split; [intros X; apply W3, X|]. split; [auto|]. split; [auto|]. split; [auto|]. split; [auto|]. split; [intros X; apply W3, X|]. split; [reflexivity|].
  split; [rewrite !map_length, seq_length; reflexivity|]. apply Forall_map, Forall_forall. intros i Hi. apply in_seq in Hi.
  destruct (m_column_ok dest (map ap_n bs) wts i) as [M1 M2]; auto; try lia.
  - rewrite map_length. auto.
  - rewrite Forall_forall in W1. rewrite map_length in Hi. apply W1, nth_In. lia.
  - rewrite M1, map_length. auto.
Qed.

(** ** The loop *)
Lemma loop_inv (I : list apop -> Prop) (L : clog -> Prop) stop :
  (forall c ps ps' lg seen, I ps -> aeo_cycle pw pa ev dr Ncyc c ps = Some (ps', lg, seen) -> I ps' /\ L lg) ->
  forall todo c st st', I (as_pops st) -> Forall L (as_logs st) -> aeo_loop pw pa ev dr Ncyc stop c todo st = Some st' ->
  I (as_pops st') /\ Forall L (as_logs st').
Proof.
  intros HC. induction todo as [|t IH]; intros c st st' Hi Hl H; cbn [aeo_loop] in H; [injection H as <-; auto|].
  apply bind_Some in H as ([[ps lg] seen] & E & H). destruct (HC _ _ _ _ _ Hi E) as [H1 H2].
  assert (Hl' : Forall L (as_logs st ++ [lg])) by (apply Forall_app; split; auto).
  destruct (stop c); [injection H as <-; cbn; auto|]. eapply IH; [| |exact H]; cbn; auto.
Qed.
Lemma cycle_good fit c ps ps' lg seen : draws_ok dr -> Forall sane ps -> aeo_cycle pw pa ev dr Ncyc c ps = Some (ps', lg, seen) ->
  Forall good (cl_before lg) /\ Forall good ps' /\ cl_after lg = ps' /\ migration (cl_before lg) ps' /\
  Forall2 (fun p p' => length (ap_mem p') = length (ap_mem p) /\ ap_alg p' = ap_alg p) ps (cl_before lg) /\
  Forall2 same_meta (cl_before lg) ps' /\
  (honest fit ev -> Forall (fun p => good p -> own_values fit p) ps -> Forall (own_values fit) (cl_before lg) /\ Forall (own_values fit) ps').
Proof.
  intros Hd Hs H. destruct (cycle_ok _ _ _ _ _ H) as (evd & eis & E & Hb & Ha & Hseen & Hl & Hdn & Hm & _).
  destruct (evolve_all_ok fit _ _ _ Hs E) as (G1 & G2 & G3).
  destruct (migrate_ok _ _ _ _ _ Hd G1 Hl Hdn Hm) as (M1 & M2 & M3).
  rewrite Hb. split; [auto|]. split; [auto|]. split; [auto|]. split; [auto|]. split; [auto|]. split; [auto|].
  intros Hh Ho. specialize (G3 Hh Ho). split; auto.
  assert (S1 : forall l, Forall good l -> Forall in_step l) by (intros l Hl'; eapply Forall_impl; [|exact Hl']; intros p Hp; apply Hp).
  exact (migration_own fit _ _ M1 (S1 _ G1) (S1 _ M2) G3).
Qed.
Lemma initial_fresh algs x0 pop0 : Forall fresh (initial algs x0 pop0).
Proof. unfold initial. apply Forall_map, Forall_forall. intros [i a] _. split; reflexivity. Qed.
Lemma initial_length algs x0 pop0 : length (initial algs x0 pop0) = length algs.
Proof. unfold initial. rewrite map_length, combine_length, seq_length. lia. Qed.
End Facts.
