(** Proofs about the niching step and the selection of NSGA-III. *)
From Coq Require Import List Arith ZArith QArith Bool Lia Lqa Permutation.
From Verif Require Import Base BaseFacts Space_Model Opt_Model Opt_Facts ND_Model ND_Spec ND_Proofs ND_Select.
Import ListNotations.
Open Scope nat_scope.

Lemma first_min_spec d : forall l b, In (first_min d l b) (b :: l) /\ (forall x, In x (b :: l) -> (d (first_min d l b) <= d x)%Q).
Proof.
  induction l as [|a l IH]; intro b; simpl.
  - split; auto. intros x [<-|[]]. lra.
  - destruct (IH (if Qltb (d a) (d b) then a else b)) as [A B]. destruct (Qltb (d a) (d b)) eqn:E; qprop.
    + split; [simpl in A; tauto|]. intros x [<-|[<-|Hx]].
      * specialize (B a (or_introl eq_refl)). lra.
      * apply B. simpl. auto.
      * apply B. simpl. auto.
    + split; [simpl in A; tauto|]. intros x [<-|[<-|Hx]].
      * apply B. simpl. auto.
      * specialize (B b (or_introl eq_refl)). lra.
      * apply B. simpl. auto.
Qed.

Lemma list_min_spec l c : list_min l = Some c -> In c l /\ forall x, In x l -> c <= x.
Proof.
  revert c. induction l as [|a l IH]; simpl; intros c E; [discriminate|]. destruct (list_min l) as [m|] eqn:El.
  - destruct (IH m eq_refl) as [A B]. inversion E; subst. split.
    + destruct (Nat.min_dec a m) as [->| ->]; auto.
    + intros x [<-|Hx]; [lia|]. specialize (B x Hx). lia.
  - inversion E; subst. split; auto. intros x [<-|Hx]; auto. destruct l as [|b r]; [destruct Hx|]. simpl in El. discriminate.
Qed.
Lemma list_min_some l : l <> [] -> exists c, list_min l = Some c.
Proof. destruct l; [congruence|]. simpl. eauto. Qed.

Section Niche.
Context (n nref : nat) (niche : nat -> nat) (dist : nat -> Q) (shuffle : nat -> list nat -> list nat) (before : nat -> nat).
Context (Sh : shuffles shuffle) (Nr : forall j, j < n -> niche j < nref).

Definition sel_ok (st : niche_state) : Prop :=
  NoDup (ni_sel st) /\ (forall j, In j (ni_sel st) -> j < n) /\
  (forall j, j < n -> (ni_av st j = true <-> ~ In j (ni_sel st))) /\
  (forall b, ni_cnt st b = before b + taken niche (ni_sel st) b) /\
  closest_first n niche dist before (ni_sel st).

(** [b] has an available member. *)
Definition open (st : niche_state) (b : nat) : Prop := exists j, j < n /\ niche j = b /\ ~ In j (ni_sel st).

Lemma taken_snoc sel j b : taken niche (sel ++ [j]) b = taken niche sel b + (if niche j =? b then 1 else 0).
Proof. unfold taken. rewrite filter_app, app_length. simpl. destruct (niche j =? b); auto. Qed.

Lemma pick_ok st b : sel_ok st -> open st b -> exists st' j, niche_pick n niche dist shuffle st b = Some st' /\
  niche j = b /\ j < n /\ ~ In j (ni_sel st) /\ ni_sel st' = ni_sel st ++ [j] /\ sel_ok st'.
Proof.
  intros (ND & Lt & Av & Cn & Cf) (j0 & Hj0 & Nj0 & Oj0). unfold niche_pick.
  set (cand := filter (fun j => (niche j =? b) && ni_av st j) (seq 0 n)).
  assert (HC : forall j, In j (shuffle (ni_t st) cand) <-> j < n /\ niche j = b /\ ~ In j (ni_sel st)).
  { intro j. rewrite (proj1 (Sh (ni_t st) cand j)). unfold cand. rewrite filter_In, in_seq, andb_true_iff, Nat.eqb_eq. split.
    - intros (H1 & H2 & H3). split; [lia|]. split; auto. apply Av; auto. lia.
    - intros (H1 & H2 & H3). split; [lia|]. split; auto. apply Av; auto. }
  destruct (shuffle (ni_t st) cand) as [|a r] eqn:E.
  { exfalso. assert (K : In j0 []) by (apply HC; auto). destruct K. }
  set (j := if ni_cnt st b =? 0 then first_min dist r a else a).
  assert (Hj : In j (a :: r)).
  { unfold j. destruct (ni_cnt st b =? 0); [apply first_min_spec|simpl; auto]. }
  apply HC in Hj. destruct Hj as (H1 & H2 & H3).
  eexists. exists j. split; [reflexivity|]. split; [auto|split; [auto|split; [auto|split; [reflexivity|]]]].
  split; [|split; [|split; [|split]]]; cbn [ni_sel ni_av ni_cnt].
  - apply NoDup_snoc; auto.
  - intros x Hx. apply in_app_or in Hx. destruct Hx as [Hx|[<-|[]]]; auto.
  - intros x Hx. unfold upd. destruct (Nat.eqb_spec x j) as [->|Nx].
    + split; [discriminate|]. intro K. exfalso. apply K. apply in_or_app. simpl. auto.
    + rewrite Av by auto. split; intros K1 K2; apply K1; [|apply in_or_app; auto]. apply in_app_or in K2. destruct K2 as [|[|[]]]; auto. congruence.
  - intro c. rewrite taken_snoc. unfold upd. destruct (Nat.eqb_spec c b) as [->|Nc].
    + rewrite Cn, H2, Nat.eqb_refl. lia.
    + rewrite Cn. destruct (Nat.eqb_spec (niche j) c); [congruence|]. lia.
  - intros i Hi B0. apply in_app_or in Hi. destruct Hi as [Hi|[<-|[]]].
    + destruct (Cf i Hi B0) as (x & X1 & X2 & X3). exists x. split; [apply in_or_app; auto|auto].
    + destruct (in_dec Nat.eq_dec (niche j) (map niche (ni_sel st))) as [Hin|Nin].
      * apply in_map_iff in Hin. destruct Hin as (i & Ei & Hi). destruct (Cf i Hi) as (x & X1 & X2 & X3); [congruence|].
        rewrite Ei in X2, X3. exists x. split; [apply in_or_app; auto|auto].
      * exists j. split; [apply in_or_app; simpl; auto|split; auto]. intros j' Hj' Nj'.
        assert (C0 : ni_cnt st b = 0).
        { rewrite Cn, <- H2, B0. simpl. unfold taken. destruct (filter _ (ni_sel st)) as [|y l] eqn:Ef; auto. exfalso.
          assert (K : In y (y :: l)) by (simpl; auto). rewrite <- Ef in K. apply filter_In in K. destruct K as [K1 K2].
          apply Nat.eqb_eq in K2. apply Nin. rewrite <- K2. apply in_map. auto. }
        unfold j. rewrite C0. simpl. apply first_min_spec. apply HC. split; [auto|split; [congruence|]].
        intro K. apply Nin. rewrite <- Nj'. apply in_map. auto.
Qed.

Definition bal (M : nat) (st : niche_state) : Prop :=
  (forall i, In i (ni_sel st) -> ni_cnt st (niche i) <= M + 1) /\ (forall b, open st b -> M <= ni_cnt st b).

Lemma picks_ok c : forall bs st, sel_ok st -> NoDup bs -> (forall b, In b bs -> open st b /\ ni_cnt st b = c) -> bal c st ->
  exists st', ofold (niche_pick n niche dist shuffle) st bs = Some st' /\ sel_ok st' /\ bal c st' /\
    length (ni_sel st') = length (ni_sel st) + length bs.
Proof.
  induction bs as [|b bs IH]; intros st OK ND Ob B; simpl.
  - exists st. split; [auto|split; [auto|split; [auto|lia]]].
  - inversion ND; subst. destruct (Ob b (or_introl eq_refl)) as [Op Cb].
    destruct (pick_ok st b OK Op) as (st' & j & E & Nj & Hj & Fj & Es & OK'). rewrite E.
    assert (Cn' : forall x, ni_cnt st' x = ni_cnt st x + (if x =? b then 1 else 0)).
    { intro x. destruct OK as (_ & _ & _ & Cn & _), OK' as (_ & _ & _ & Cn' & _). rewrite Cn', Cn, Es, taken_snoc, Nj.
      rewrite (Nat.eqb_sym b x). lia. }
    destruct (IH st') as (st2 & E2 & OK2 & B2 & L2); auto.
    + intros x Hx. destruct (Ob x (or_intror Hx)) as [(y & Y1 & Y2 & Y3) Cx]. assert (Nx : x <> b) by (intros ->; contradiction). split.
      * exists y. split; [auto|split; auto]. rewrite Es. intro K. apply in_app_or in K. destruct K as [|[|[]]]; auto. congruence.
      * rewrite Cn'. destruct (Nat.eqb_spec x b); [congruence|]. lia.
    + destruct B as [B1 B2]. split.
      * intros i Hi. rewrite Es in Hi. rewrite Cn'. destruct (Nat.eqb_spec (niche i) b) as [->|Nb]; [lia|].
        apply in_app_or in Hi. destruct Hi as [Hi|[<-|[]]]; [|congruence]. specialize (B1 i Hi). lia.
      * intros x (y & Y1 & Y2 & Y3). rewrite Cn'. assert (open st x).
        { exists y. split; [auto|split; auto]. intro K. apply Y3. rewrite Es. apply in_or_app. auto. }
        specialize (B2 x H). lia.
    + exists st2. split; [auto|split; [auto|split; [auto|]]]. rewrite L2, Es, app_length. simpl. lia.
Qed.

Lemma round_ok k st M : sel_ok st -> bal M st -> length (ni_sel st) < k -> k <= n ->
  exists st' M', niche_round n nref niche dist shuffle k st = Some st' /\ sel_ok st' /\ bal M' st' /\
    length (ni_sel st) < length (ni_sel st') /\ length (ni_sel st') <= k.
Proof.
  intros OK B Hk Hn. unfold niche_round.
  set (avn := filter (fun b => existsb (fun j => (niche j =? b) && ni_av st j) (seq 0 n)) (seq 0 nref)).
  assert (HA : forall b, In b avn <-> open st b).
  { intro b. unfold avn. rewrite filter_In, in_seq, existsb_exists. destruct OK as (_ & _ & Av & _ & _). split.
    - intros (_ & j & H1 & H2). apply in_seq in H1. apply andb_true_iff in H2. destruct H2 as [H2 H3]. apply Nat.eqb_eq in H2.
      exists j. split; [lia|split; auto]. apply Av; auto. lia.
    - intros (j & H1 & H2 & H3). split; [specialize (Nr j H1); lia|]. exists j. split; [apply in_seq; lia|].
      apply andb_true_iff. split; [apply Nat.eqb_eq; auto|]. apply Av; auto. }
  assert (NA : NoDup avn) by (apply NoDup_filter, seq_NoDup).
  assert (Ex : exists b, open st b).
  { destruct (missing n (ni_sel st)) as (j & H1 & H2); [lia|]. exists (niche j), j. auto. }
  destruct (list_min_some (map (ni_cnt st) avn)) as (c & Ec).
  { destruct Ex as (b & Hb). apply HA in Hb. destruct avn; [destruct Hb|]. discriminate. }
  rewrite Ec. apply list_min_spec in Ec. destruct Ec as [C1 C2].
  set (t := ni_t st). set (mins := filter (fun b => ni_cnt st b =? c) avn).
  set (st1 := NicheSt (ni_av st) (ni_cnt st) (ni_sel st) (S t)).
  assert (OK1 : sel_ok st1) by exact OK.
  assert (HM : forall b, In b (shuffle t mins) <-> open st b /\ ni_cnt st b = c).
  { intro b. rewrite (proj1 (Sh t mins b)). unfold mins. rewrite filter_In, HA, Nat.eqb_eq. tauto. }
  assert (NM : NoDup (shuffle t mins)) by (apply Sh; [exact 0|apply NoDup_filter; auto]).
  destruct (picks_ok c (firstn (k - length (ni_sel st)) (shuffle t mins)) st1) as (st' & E & OK' & B' & L').
  - auto.
  - apply NoDup_firstn. auto.
  - intros b Hb. apply in_firstn in Hb. apply HM in Hb. auto.
  - destruct B as [B1 B2]. split.
    + intros i Hi. specialize (B1 i Hi).
      apply in_map_iff in C1. destruct C1 as (b & Eb & Hb). apply HA in Hb. specialize (B2 b Hb). cbn [st1 ni_cnt]. lia.
    + intros b Hb. cbn [st1 ni_cnt]. apply C2, in_map, HA. auto.
  - exists st', c. split; [exact E|split; [auto|split; [auto|]]]. rewrite L'. cbn [st1 ni_sel]. rewrite firstn_length.
    assert (0 < length (shuffle t mins)).
    { apply in_map_iff in C1. destruct C1 as (b & Eb & Hb). apply HA in Hb. assert (K : In b (shuffle t mins)) by (apply HM; auto).
      destruct (shuffle t mins); [destruct K|simpl; lia]. }
    lia.
Qed.

Lemma while_ok k : k <= n -> forall fuel st M, sel_ok st -> bal M st -> length (ni_sel st) <= k -> k - length (ni_sel st) <= fuel ->
  exists st' M', niche_while n nref niche dist shuffle fuel k st = Done st' /\ sel_ok st' /\ bal M' st' /\ length (ni_sel st') = k.
Proof.
  intro Hn. induction fuel as [|fuel IH]; intros st M OK B Hl Hf; cbn [niche_while].
  - replace (length (ni_sel st) <? k) with false by (symmetry; apply Nat.ltb_ge; lia). exists st, M. repeat (split; [assumption || reflexivity|]). lia.
  - destruct (Nat.ltb_spec (length (ni_sel st)) k) as [Hk|Hk].
    + destruct (round_ok k st M OK B Hk Hn) as (st' & M' & E & OK' & B' & L1 & L2). rewrite E.
      apply (IH st' M'); auto. lia.
    + exists st, M. split; [auto|split; [auto|split; [auto|lia]]].
Qed.

Lemma niching_ok k : k <= n -> exists st, niching n nref niche dist shuffle k before = Done st /\
  length (ni_sel st) = k /\ NoDup (ni_sel st) /\ (forall j, In j (ni_sel st) -> j < n) /\
  balanced n niche before (ni_sel st) /\ closest_first n niche dist before (ni_sel st).
Proof.
  intro Hn. unfold niching.
  destruct (while_ok k Hn k (NicheSt (fun _ => true) before [] 0) 0) as (st & M & E & (ND & Lt & Av & Cn & Cf) & [B1 B2] & L).
  - split; [constructor|split; [intros j []|split; [|split]]]; simpl.
    + intros j Hj. split; auto.
    + intro b. unfold taken. simpl. lia.
    + intros i [].
  - split; [intros i []|]. intros. lia.
  - simpl. lia.
  - simpl. lia.
  - exists st. split; [auto|split; [auto|split; [auto|split; [auto|split; [|auto]]]]].
    intros i j Hi Hj Nj. rewrite <- !Cn. specialize (B1 i Hi).
    assert (K : open st (niche j)) by (exists j; auto). specialize (B2 _ K). lia.
Qed.
End Niche.

Lemma select3_ok ws m k fronts nref niche dist shuffle : objectives m ws -> levels ws fronts ->
  just_enough (length ws) k fronts -> k <= length ws -> shuffles shuffle ->
  (forall j, j < length (concat fronts) -> niche j < nref) ->
  exists part, select3 nref niche dist shuffle fronts k =
      Done (concat (removelast fronts) ++ map (fun j => nth j (last fronts []) 0) part) /\
    elitist ws k (concat (removelast fronts) ++ map (fun j => nth j (last fronts []) 0) part) /\
    (let c := length (concat (removelast fronts)) in
     balanced (length (last fronts [])) (fun j => niche (c + j)) (fun b => taken niche (seq 0 c) b) part /\
     closest_first (length (last fronts [])) (fun j => niche (c + j)) (fun j => dist (c + j)) (fun b => taken niche (seq 0 c) b) part).
Proof.
  intros O L J Hk Sh Nr. destruct (last_size _ _ _ J Hk) as [A B].
  assert (EL : length (concat fronts) = length (concat (removelast fronts)) + length (last fronts [])).
  { destruct fronts as [|F fs _] using rev_ind; [simpl in *; lia|]. rewrite removelast_last, last_last, concat_app, app_length. simpl. rewrite app_nil_r. auto. }
  unfold select3. set (c := length (concat (removelast fronts))) in *.
  destruct (niching_ok (length (last fronts [])) nref (fun j => niche (c + j)) (fun j => dist (c + j)) shuffle (count_niche niche c) Sh)
    with (k := k - c) as (st & E & Ls & ND & Lt & Ba & Cf); auto.
  { intros j Hj. apply Nr. lia. }
  rewrite E. exists (ni_sel st). split; [auto|split; [|split; auto]].
  apply (sel_elitist ws m k fronts); auto.
  - assert (NL : NoDup (last fronts [])) by (eapply NoDup_last; eauto).
    clear -ND Lt NL. induction (ni_sel st) as [|j l IH]; simpl; [constructor|]. inversion ND; subst. constructor.
    + intro K. apply in_map_iff in K. destruct K as (x & Ex & Hx). apply H1.
      replace j with x; auto. apply (proj1 (NoDup_nth (last fronts []) 0) NL); [apply Lt; simpl; auto|apply Lt; simpl; auto|exact Ex].
    + apply IH; auto. intros x Hx. apply Lt. simpl. auto.
  - intros x Hx. apply in_map_iff in Hx. destruct Hx as (j & <- & Hj). apply nth_In. auto.
  - rewrite map_length. auto.
Qed.
