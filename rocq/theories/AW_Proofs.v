(** Proofs about the Atari wrappers. *)
From Coq Require Import List Arith ZArith QArith Bool Lia Lqa.
From Verif Require Import AW_Model AW_Spec.
Import ListNotations.
Open Scope nat_scope.

Lemma skip_add : forall {X} a b (l : list X), skipn a (skipn b l) = skipn (a + b) l.
Proof. intros X a b. induction b as [|b IH]; intros l; [now rewrite Nat.add_0_r|]. destruct l as [|x l]; [now rewrite !skipn_nil|]. rewrite Nat.add_succ_r. cbn [skipn]. apply IH. Qed.
Section Proofs.
  Context {S A O : Type}.
  Variable e : env S A O.
  Lemma run_app : forall s t1 t2 s', run e s (t1 ++ t2) s' <-> exists s1, run e s t1 s1 /\ run e s1 t2 s'.
  Proof.
    intros s t1. revert s. induction t1 as [|x t1 IH]; intros s t2 s'; cbn [app].
    - split; [intros H; exists s; split; [constructor|exact H]|intros (s1 & H1 & H2); inversion H1; subst; exact H2].
    - split.
      + intros H. inversion H as [|? o s1 ? ? E R|? a o r d s1 ? ? E R]; subst; apply IH in R; destruct R as (s2 & R1 & R2); exists s2; (split; [|exact R2]); econstructor; eassumption.
      + intros (s2 & H & R2). inversion H as [|? o s1 ? ? E R|? a o r d s1 ? ? E R]; subst; econstructor; try eassumption; apply IH; now exists s2.
  Qed.
  Lemma run_step1 : forall s a o r d s', run e s [Stp a o r d] s' <-> estep e s a = Some (o, r, d, s').
  Proof. intros. split; [intros H; inversion H as [|? |? ? ? ? ? s1 ? ? E R]; subst; inversion R; now subst|intros H; econstructor; [exact H|constructor]]. Qed.
  Lemma run_reset1 : forall s o s', run e s [Rst o] s' <-> ereset e s = Some (o, s').
  Proof. intros. split; [intros H; inversion H as [|? ? s1 ? ? E R|]; subst; inversion R; now subst|intros H; econstructor; [exact H|constructor]]. Qed.
  (** A piece, as calls. *)
  Lemma piece_run : forall a s p s', piece a p /\ run e s p s' <->
    exists o r d s1, estep e s a = Some (o, r, d, s1) /\ if d then exists o', p = [Stp a o r true; Rst o'] /\ ereset e s1 = Some (o', s') else p = [Stp a o r false] /\ s' = s1.
  Proof.
    intros a s p s'. split.
    - intros [P R]. destruct P as [o r|o r o'].
      + apply run_step1 in R. exists o, r, false, s'. split; [exact R|split; reflexivity].
      + inversion R as [| |? ? ? ? ? s1 ? ? E R']; subst. apply run_reset1 in R'. exists o, r, true, s1. split; [exact E|]. now exists o'.
    - intros (o & r & d & s1 & E & H). destruct d.
      + destruct H as (o' & -> & R). split; [constructor|]. econstructor; [exact E|]. now apply run_reset1.
      + destruct H as (-> & ->). split; [constructor|]. now apply run_step1.
  Qed.
  Variable noop one two : A.
  Definition last_obs (tr : list (event A O)) (o : option O) : option O := match rev tr with [] => o | x :: _ => Some (obs_of x) end.
  Lemma last_obs_app : forall t1 t2 o, last_obs (t1 ++ t2) o = last_obs t2 (last_obs t1 o).
  Proof. intros. unfold last_obs. rewrite rev_app_distr. destruct (rev t2); reflexivity. Qed.
  Lemma noop_loop_iff : forall n o s o' s', noop_loop e noop n o s = Some (o', s') <-> exists ps, length ps = n /\ Forall (piece noop) ps /\ run e s (concat ps) s' /\ o' = last_obs (concat ps) o.
  Proof.
    induction n as [|n IH]; intros o s o' s'; cbn [noop_loop].
    - split; [intros H; injection H as <- <-; exists []; repeat split; constructor|]. intros (ps & L & _ & R & ->). destruct ps; [|discriminate]. inversion R; subst. reflexivity.
    - split.
      + destruct (estep e s noop) as [[[[o1 r1] d1] s1]|] eqn:E; cbn [bind]; [|discriminate]. destruct d1.
        * destruct (ereset e s1) as [[o2 s2]|] eqn:G; cbn [bind]; [|discriminate]. intros H. apply IH in H. destruct H as (ps & L & P & R & ->). exists ([Stp noop o1 r1 true; Rst o2] :: ps). cbn [length concat app]. split; [now rewrite L|]. split; [constructor; [constructor|exact P]|].
          split; [econstructor; [exact E|]; econstructor; [exact G|exact R]|]. change (Stp noop o1 r1 true :: Rst o2 :: concat ps) with ([Stp noop o1 r1 true; Rst o2] ++ concat ps). now rewrite last_obs_app.
        * intros H. apply IH in H. destruct H as (ps & L & P & R & ->). exists ([Stp noop o1 r1 false] :: ps). cbn [length concat app]. split; [now rewrite L|]. split; [constructor; [constructor|exact P]|].
          split; [econstructor; [exact E|exact R]|]. change (Stp noop o1 r1 false :: concat ps) with ([Stp noop o1 r1 false] ++ concat ps). now rewrite last_obs_app.
      + intros (ps & L & P & R & ->). destruct ps as [|p ps]; [discriminate|]. cbn in L. injection L as L. apply Forall_cons_iff in P. destruct P as [P Ps]. cbn [concat] in *. apply run_app in R. destruct R as (s1 & R1 & R2). rewrite last_obs_app.
        destruct (proj1 (piece_run noop s p s1) (conj P R1)) as (o1 & r1 & d1 & s2 & E & H). rewrite E. cbn [bind]. destruct d1.
        * destruct H as (o2 & -> & G). rewrite G. cbn [bind]. apply IH. exists ps. repeat split; auto.
        * destruct H as (-> & ->). apply IH. exists ps. repeat split; auto.
  Qed.
  Lemma noop_iff : forall noops s o s', noop_reset e noop noops s = Some (o, s') <->
    exists o0 s1 ps, ereset e s = Some (o0, s1) /\ noops s1 = length ps /\ ps <> [] /\ Forall (piece noop) ps /\ run e s1 (concat ps) s' /\ exists u x, concat ps = u ++ [x] /\ obs_of x = o /\ over x = false.
  Proof.
    intros noops s o s'. unfold noop_reset.
    assert (Lst : forall ps, ps <> [] -> Forall (piece noop) ps -> exists u (x : event A O), concat ps = u ++ [x] /\ over x = false).
    { intros ps Ne P. destruct (exists_last Ne) as (qs & p & ->). apply Forall_app in P. destruct P as [_ P]. apply Forall_inv in P. rewrite concat_app. cbn [concat]. rewrite app_nil_r. destruct P as [o1 r1|o1 r1 o2].
      - now exists (concat qs), (Stp noop o1 r1 false).
      - exists (concat qs ++ [Stp noop o1 r1 true]), (Rst o2). split; [now rewrite <- app_assoc|reflexivity]. }
    destruct (ereset e s) as [[o0 s1]|] eqn:E; cbn [bind]; [|split; [discriminate|intros (x & y & z & H & _); discriminate]].
    destruct (noops s1 =? 0) eqn:Z.
    - apply Nat.eqb_eq in Z. split; [discriminate|]. intros (o1 & s2 & ps & H & L & Ne & _). injection H as <- <-. destruct ps; [contradiction|]. rewrite Z in L. discriminate.
    - apply Nat.eqb_neq in Z. split.
      + destruct (noop_loop e noop (noops s1) None s1) as [[o' s2]|] eqn:L; cbn [bind]; [|discriminate]. destruct o' as [o'|]; [|discriminate]. intros H. injection H as <- <-. apply noop_loop_iff in L. destruct L as (ps & L & P & R & Lo).
        assert (Ne : ps <> []) by (intros ->; cbn in L; congruence). exists o0, s1, ps. split; [reflexivity|]. split; [now symmetry|]. split; [exact Ne|]. split; [exact P|]. split; [exact R|]. destruct (Lst ps Ne P) as (u & x & C & Ov). exists u, x. split; [exact C|]. split; [|exact Ov].
        unfold last_obs in Lo. rewrite C, rev_app_distr in Lo. cbn in Lo. now injection Lo.
      + intros (o1 & s2 & ps & H & L & Ne & P & R & u & x & C & Ob & Ov). injection H as <- <-.
        assert (Lp : noop_loop e noop (noops s1) None s1 = Some (Some o, s')). { apply noop_loop_iff. exists ps. split; [now symmetry|]. split; [exact P|]. split; [exact R|]. unfold last_obs. rewrite C, rev_app_distr. cbn. now rewrite Ob. }
        now rewrite Lp.
  Qed.
  Lemma settle_iff : forall d s s', settle e d s = Some s' <-> if d then exists o, ereset e s = Some (o, s') else s' = s.
  Proof.
    intros [|] s s'; cbn [settle].
    - destruct (ereset e s) as [[o s1]|]; cbn [bind]; [|split; [discriminate|intros (o & H); discriminate]]. split; [intros H; injection H as <-; now exists o|intros (o' & H); now injection H as -> ->].
    - split; [intros H; now injection H|now intros ->].
  Qed.
  Lemma fire_iff : forall s o s', fire_reset e one two s = Some (o, s') <->
    exists o0 p1 x p2, piece one p1 /\ piece two (x :: p2) /\ run e s (Rst o0 :: p1 ++ x :: p2) s' /\ obs_of x = o.
  Proof.
    intros s o s'. unfold fire_reset. split.
    - destruct (ereset e s) as [[o0 s1]|] eqn:E0; cbn [bind]; [|discriminate]. destruct (estep e s1 one) as [[[[o1 r1] d1] s2]|] eqn:E1; cbn [bind]; [|discriminate]. destruct (settle e d1 s2) as [s3|] eqn:T1; cbn [bind]; [|discriminate].
      destruct (estep e s3 two) as [[[[o2 r2] d2] s4]|] eqn:E2; cbn [bind]; [|discriminate]. destruct (settle e d2 s4) as [s5|] eqn:T2; cbn [bind]; [|discriminate]. intros H. injection H as <- <-. apply settle_iff in T1, T2.
      assert (H1 : exists p1, piece one p1 /\ run e s1 p1 s3).
      { destruct d1; [destruct T1 as (o' & T1); exists [Stp one o1 r1 true; Rst o']; split; [constructor|econstructor; [exact E1|now apply run_reset1]]|subst s3; exists [Stp one o1 r1 false]; split; [constructor|now apply run_step1]]. }
      destruct H1 as (p1 & P1 & R1).
      assert (H2 : exists x p2, piece two (x :: p2) /\ run e s3 (x :: p2) s5 /\ obs_of x = o2).
      { destruct d2; [destruct T2 as (o' & T2); exists (Stp two o2 r2 true), [Rst o']; split; [constructor|split; [econstructor; [exact E2|now apply run_reset1]|reflexivity]]|subst s5; exists (Stp two o2 r2 false), []; split; [constructor|split; [now apply run_step1|reflexivity]]]. }
      destruct H2 as (x & p2 & P2 & R2 & Ob). exists o0, p1, x, p2. split; [exact P1|]. split; [exact P2|]. split; [|exact Ob]. econstructor; [exact E0|]. apply run_app. now exists s3.
    - intros (o0 & p1 & x & p2 & P1 & P2 & R & Ob). inversion R as [|? ? s1 ? ? E0 R'|]; subst. rewrite E0. cbn [bind]. apply run_app in R'. destruct R' as (s3 & R1 & R2).
      destruct (proj1 (piece_run one s1 p1 s3) (conj P1 R1)) as (o1 & r1 & d1 & s2 & E1 & H1). rewrite E1. cbn [bind].
      assert (T1 : settle e d1 s2 = Some s3) by (apply settle_iff; destruct d1; [destruct H1 as (o' & _ & H1); now exists o'|tauto]). rewrite T1. cbn [bind].
      destruct (proj1 (piece_run two s3 (x :: p2) s') (conj P2 R2)) as (o2 & r2 & d2 & s4 & E2 & H2). rewrite E2. cbn [bind].
      assert (T2 : settle e d2 s4 = Some s') by (apply settle_iff; destruct d2; [destruct H2 as (o' & _ & H2); now exists o'|tauto]). rewrite T2. cbn [bind].
      assert (x = Stp two o2 r2 d2) as -> by (destruct d2; [destruct H2 as (o' & H2 & _)|destruct H2 as (H2 & _)]; now injection H2). reflexivity.
  Qed.

  (** *** Lives *)
  Variable lives : S -> Z.
  Lemma life_step_iff : forall s l real a o r d w, life_step e lives (s, l, real) a = Some (o, r, d, w) <->
    exists d' s', estep e s a = Some (o, r, d', s') /\ w = (s', lives s', d') /\ (d = true <-> d' = true \/ (0 < lives s' < l)%Z).
  Proof.
    intros s l real a o r d w. unfold life_step. destruct (estep e s a) as [[[[o1 r1] d1] s1]|]; cbn [bind]; [|split; [discriminate|intros (x & y & H & _); discriminate]].
    assert (B : forall x, x = d1 || ((0 <? lives s1)%Z && (lives s1 <? l)%Z) <-> (x = true <-> d1 = true \/ (0 < lives s1 < l)%Z)).
    { intros x. destruct (d1 || ((0 <? lives s1)%Z && (lives s1 <? l)%Z)) eqn:Q.
      - apply orb_true_iff in Q. assert (Q' : d1 = true \/ (0 < lives s1 < l)%Z) by (destruct Q as [Q|Q]; [now left|right; apply andb_true_iff in Q; destruct Q as [Q1 Q2]; apply Z.ltb_lt in Q1, Q2; lia]). split; [intros ->; tauto|tauto].
      - apply orb_false_iff in Q. destruct Q as [-> Q]. assert (Q' : ~ (0 < lives s1 < l)%Z) by (intros X; apply andb_false_iff in Q; destruct Q as [Q|Q]; apply Z.ltb_ge in Q; lia). split; [intros ->; split; [discriminate|intros [X|X]; [discriminate|contradiction]]|]. intros H. destruct x; [|reflexivity]. destruct (proj1 H eq_refl) as [X|X]; [discriminate|contradiction]. }
    split.
    - intros H. assert (Hd : d = d1 || ((0 <? lives s1)%Z && (lives s1 <? l)%Z)) by now injection H. assert (o1 = o /\ r1 = r /\ (s1, lives s1, d1) = w) as (-> & -> & <-) by (injection H; auto). exists d1, s1. split; [reflexivity|]. split; [reflexivity|]. now apply B.
    - intros (d' & s' & H & -> & Hd). injection H as -> -> -> ->. apply B in Hd. now rewrite Hd.
  Qed.
  Lemma life_reset_real : forall s l o w, life_reset e noop lives (s, l, true) = Some (o, w) <-> exists s', ereset e s = Some (o, s') /\ w = (s', lives s', true).
  Proof. intros s l o w. unfold life_reset. destruct (ereset e s) as [[o1 s1]|]; cbn [bind]; [|split; [discriminate|intros (s' & H & _); discriminate]]. split; [intros H; injection H as <- <-; now exists s1|intros (s' & H & ->); now injection H as -> ->]. Qed.
  Lemma life_reset_noop : forall s l o w, life_reset e noop lives (s, l, false) = Some (o, w) <-> exists r d s', estep e s noop = Some (o, r, d, s') /\ w = (s', lives s', false).
  Proof. intros s l o w. unfold life_reset. destruct (estep e s noop) as [[[[o1 r1] d1] s1]|]; cbn [bind]; [|split; [discriminate|intros (r & d & s' & H & _); discriminate]]. split; [intros H; injection H as <- <-; now exists r1, d1, s1|intros (r & d & s' & H & ->); now injection H as -> _ _ ->]. Qed.

  (** *** Skipping frames *)
  Variable omax : O -> O -> O.
  Definition frames (skip i : nat) (tr : list (event A O)) (b : O * O) : O * O :=
    (match nth_error tr (skip - 2 - i) with Some x => if skip <=? i + 1 then fst b else obs_of x | None => fst b end, match nth_error tr (skip - 1 - i) with Some x => obs_of x | None => snd b end).
  Lemma skip_loop_iff : forall skip a k i s b total d0 b' total' d s', i + k = skip ->
    (skip_loop e skip a k i s b total d0 = Some (b', total', d, s') <->
     exists tr, run e s tr s' /\ Forall (fun x => exists o r dd, x = Stp a o r dd) tr /\ length tr <= k /\ (forall u x v, tr = u ++ x :: v -> v <> [] -> over x = false) /\
       (length tr < k -> exists u x, tr = u ++ [x] /\ over x = true) /\ total' = fold_left Qplus (map reward_of tr) total /\ b' = frames skip i tr b /\
       d = match rev tr with x :: _ => Some (over x) | [] => d0 end).
  Proof.
    intros skip a. induction k as [|k IH]; intros i s b total d0 b' total' d s' Hk; cbn [skip_loop].
    - split.
      + intros H. injection H as <- <- <- <-. exists []. split; [constructor|]. split; [constructor|]. split; [reflexivity|]. split; [intros u x v E; destruct u; discriminate|]. split; [cbn; lia|]. split; [reflexivity|]. split; [|reflexivity].
        unfold frames. rewrite !(proj2 (nth_error_None _ _)) by (cbn; lia). now destruct b.
      + intros (tr & R & _ & L & _ & _ & -> & -> & ->). destruct tr; [|cbn in L; lia]. inversion R; subst. unfold frames. rewrite !(proj2 (nth_error_None _ _)) by (cbn; lia). now destruct b.
    - set (b2 := fun o => let b1 := if i + 2 =? skip then (o, snd b) else b in if i + 1 =? skip then (fst b1, o) else b1).
      assert (Fr : forall o r dd tr, (k = 0 -> tr = []) -> frames skip i (Stp a o r dd :: tr) b = frames skip (i + 1) tr (b2 o)).
      { intros o r dd tr Ht. unfold frames, b2. destruct (i + 1 =? skip) eqn:E1; [apply Nat.eqb_eq in E1|apply Nat.eqb_neq in E1].
        - assert (k = 0) by lia. rewrite (Ht H). replace (skip - 1 - i) with 0 by lia. replace (skip - 2 - i) with 0 by lia. rewrite !(proj2 (nth_error_None [] _)) by (cbn; lia). cbn [nth_error]. assert (skip <=? i + 1 = true) as -> by (apply Nat.leb_le; lia). assert (i + 2 =? skip = false) as -> by (apply Nat.eqb_neq; lia). reflexivity.
        - destruct (i + 2 =? skip) eqn:E2; [apply Nat.eqb_eq in E2|apply Nat.eqb_neq in E2].
          + replace (skip - 1 - i) with 1 by lia. replace (skip - 2 - i) with 0 by lia. replace (skip - 1 - (i + 1)) with 0 by lia. replace (skip - 2 - (i + 1)) with 0 by lia. cbn [nth_error]. assert (skip <=? i + 1 = false) as -> by (apply Nat.leb_gt; lia). assert (skip <=? i + 1 + 1 = true) as -> by (apply Nat.leb_le; lia). cbn [fst snd obs_of]. f_equal. destruct (match tr with [] => None | x :: _ => Some x end); reflexivity.
          + replace (skip - 1 - i) with (Datatypes.S (skip - 1 - (i + 1))) by lia. replace (skip - 2 - i) with (Datatypes.S (skip - 2 - (i + 1))) by lia. cbn [nth_error]. assert (skip <=? i + 1 = false) as -> by (apply Nat.leb_gt; lia). assert (skip <=? i + 1 + 1 = false) as -> by (apply Nat.leb_gt; lia). reflexivity. }
      split.
      + destruct (estep e s a) as [[[[o r] dd] s1]|] eqn:E; cbn [bind]; [|discriminate]. destruct dd.
        * intros H. injection H as <- <- <- <-. exists [Stp a o r true]. split; [now apply run_step1|]. split; [constructor; [now exists o, r, true|constructor]|]. split; [cbn; lia|]. split; [intros [|x0 [|y u]] x v Q; try discriminate; cbn in Q; injection Q as <- <-; intros X; now elim X|]. split; [intros _; now exists [], (Stp a o r true)|]. split; [reflexivity|]. split; [|reflexivity].
          rewrite (Fr o r true []) by reflexivity. unfold frames. assert (N : forall X j, nth_error (@nil X) j = None) by (intros X [|j]; reflexivity). rewrite !N. fold (b2 o). now destruct (b2 o).
        * intros H. apply IH in H; [|lia]. destruct H as (tr & R & Fa & L & On & En & -> & -> & ->). exists (Stp a o r false :: tr). split; [econstructor; [exact E|exact R]|]. split; [constructor; [now exists o, r, false|exact Fa]|]. split; [cbn; lia|].
          split; [intros [|x0 u] x v Q Nv; cbn in Q; injection Q as <- Q; [reflexivity|now apply (On u x v)]|].
          split; [intros Ll; cbn in Ll; destruct (En ltac:(lia)) as (u & x & -> & Ov); now exists (Stp a o r false :: u), x|]. split; [reflexivity|].
          split; [symmetry; apply Fr; intros ->; destruct tr; [reflexivity|cbn in L; lia]|]. cbn [rev]. destruct (rev tr); reflexivity.
      + intros (tr & R & Fa & L & On & En & -> & -> & ->). destruct tr as [|x tr].
        { exfalso. destruct (En ltac:(cbn; lia)) as (u & x & Q & _). destruct u; discriminate. }
        apply Forall_cons_iff in Fa. destruct Fa as [(o & r & dd & ->) Fa]. inversion R as [| |? ? ? ? ? s1 ? ? E R']; subst. rewrite E. cbn [bind]. assert (Ht : k = 0 -> tr = []) by (intros ->; cbn in L; destruct tr; [reflexivity|cbn in L; lia]). destruct dd.
        * destruct tr as [|y tr]; [|exfalso; specialize (On [] (Stp a o r true) (y :: tr) eq_refl); cbn in On; assert (H : true = false) by (apply On; discriminate); discriminate]. inversion R'; subst. cbn [rev app map fold_left reward_of over]. rewrite (Fr o r true [] Ht). unfold frames. assert (N : forall X j, nth_error (@nil X) j = None) by (intros X [|j]; reflexivity). rewrite !N. fold (b2 o). now destruct (b2 o).
        * fold (b2 o). apply IH; [lia|]. exists tr. split; [exact R'|]. split; [exact Fa|]. split; [cbn in L; lia|]. split; [intros u x v -> Nv; now apply (On (Stp a o r false :: u) x v)|].
          split; [intros Ll; destruct (En ltac:(cbn; lia)) as (u & x & Q & Ov); destruct u as [|y u]; cbn in Q; injection Q as Q1 Q2; [subst x; discriminate|now exists u, x]|]. split; [reflexivity|]. split; [now apply Fr|]. cbn [rev]. destruct (rev tr); reflexivity.
  Qed.
  Lemma skip_iff : forall skip s b a o r d s' b', skip_step e omax skip (s, b) a = Some (o, r, d, (s', b')) <->
    exists tr u x, tr = u ++ [x] /\ run e s tr s' /\ Forall (fun y => exists o r dd, y = Stp a o r dd) tr /\ length tr <= skip /\ Forall (fun y => over y = false) u /\ over x = d /\ (length tr < skip -> d = true) /\
      r = fold_left Qplus (map reward_of tr) 0%Q /\ b' = frames skip 0 tr b /\ o = omax (fst b') (snd b').
  Proof.
    intros skip s b a o r d s' b'. unfold skip_step. cbn [fst snd]. split.
    - destruct (skip_loop e skip a skip 0 s b 0%Q None) as [[[[b1 t1] d1] s1]|] eqn:L; cbn [bind]; [|discriminate]. destruct d1 as [d1|]; [|discriminate]. intros H. injection H as <- <- <- <- <-. apply skip_loop_iff in L; [|reflexivity]. destruct L as (tr & R & Fa & Ll & On & En & -> & -> & Hd).
      destruct (rev tr) as [|x u] eqn:Rv; [discriminate|]. injection Hd as ->. assert (T : tr = rev u ++ [x]) by (rewrite <- (rev_involutive tr), Rv; reflexivity). exists tr, (rev u), x. split; [exact T|]. split; [exact R|]. split; [exact Fa|]. split; [exact Ll|].
      split; [apply Forall_forall; intros y I; apply in_split in I; destruct I as (p & q & I); apply (On p y (q ++ [x])); [rewrite T, I, <- app_assoc; reflexivity|destruct q; discriminate]|]. split; [reflexivity|].
      split; [intros Lt; destruct (En Lt) as (u' & x' & T' & Ov); rewrite T in T'; apply app_inj_tail in T'; destruct T' as [_ ->]; exact Ov|]. split; [reflexivity|]. split; reflexivity.
    - intros (tr & u & x & T & R & Fa & Ll & On & Ov & En & -> & -> & ->).
      assert (L : skip_loop e skip a skip 0 s b 0%Q None = Some (frames skip 0 tr b, fold_left Qplus (map reward_of tr) 0%Q, Some d, s')).
      { apply skip_loop_iff; [reflexivity|]. exists tr. split; [exact R|]. split; [exact Fa|]. split; [exact Ll|]. split.
        - intros p y v E Nv. rewrite T in E. destruct (exists_last Nv) as (v' & z & ->). rewrite Forall_forall in On. apply On. change (u ++ [x] = p ++ (y :: v') ++ [z]) in E. rewrite app_assoc in E. apply app_inj_tail in E. destruct E as [-> _]. apply in_or_app. right. now left.
        - split; [intros Lt; exists u, x; split; [exact T|now rewrite Ov, (En Lt)]|]. split; [reflexivity|]. split; [reflexivity|]. rewrite T, rev_app_distr. cbn. now rewrite Ov. }
      rewrite L. reflexivity.
  Qed.
  Lemma frames_full : forall skip u x y b, length (u ++ [x; y]) = skip -> frames skip 0 (u ++ [x; y]) b = (obs_of x, obs_of y).
  Proof.
    intros skip u x y b L. rewrite app_length in L. cbn in L. unfold frames. replace (skip - 2 - 0) with (length u) by lia. replace (skip - 1 - 0) with (Datatypes.S (length u)) by lia. rewrite !nth_error_app2 by lia. rewrite Nat.sub_diag. replace (Datatypes.S (length u) - length u) with 1 by lia. cbn [nth_error]. assert (skip <=? 0 + 1 = false) as -> by (apply Nat.leb_gt; lia). reflexivity.
  Qed.
  Lemma frames_stale : forall skip tr b, length tr + 2 <= skip -> frames skip 0 tr b = b.
  Proof. intros skip tr b L. unfold frames. rewrite !(proj2 (nth_error_None _ _)) by lia. now destruct b. Qed.
  Lemma frames_one : forall x b, frames 1 0 [x] b = (fst b, obs_of x). Proof. intros. reflexivity. Qed.
  Lemma frames_half : forall skip u x b, 2 <= skip -> length (u ++ [x]) + 1 = skip -> frames skip 0 (u ++ [x]) b = (obs_of x, snd b).
  Proof.
    intros skip u x b H L. rewrite app_length in L. cbn in L. unfold frames. replace (skip - 2 - 0) with (length u) by lia. rewrite nth_error_app2, Nat.sub_diag by lia. cbn [nth_error]. rewrite (proj2 (nth_error_None _ _)) by (rewrite app_length; cbn; lia). assert (skip <=? 0 + 1 = false) as -> by (apply Nat.leb_gt; lia). reflexivity.
  Qed.
  Lemma skip_zero : forall w a, skip_step e omax 0 w a = None. Proof. reflexivity. Qed.

  (** *** Frame stacks *)
  Lemma push_lastn : forall n (l : list O) o, push n (lastn n l) o = lastn n (l ++ [o]).
  Proof.
    intros n l o. unfold push, lastn. rewrite !app_length, skipn_length. cbn [length]. destruct (Nat.le_gt_cases n (length l)) as [H|H].
    - replace (length l - (length l - n) + 1 - n) with 1 by lia. destruct n as [|n].
      + rewrite !Nat.sub_0_r. rewrite skipn_all. cbn [app skipn]. rewrite <- (app_length l [o]) || idtac. symmetry. apply skipn_all2. rewrite app_length. cbn. lia.
      + replace (length l + 1 - Datatypes.S n) with (1 + (length l - Datatypes.S n)) by lia. rewrite <- skip_add. rewrite (skipn_app (length l - Datatypes.S n)). replace (length l - Datatypes.S n - length l) with 0 by lia. reflexivity.
    - replace (length l - n) with 0 by lia. cbn [skipn]. replace (length l - 0 + 1 - n) with (length l + 1 - n) by lia. reflexivity.
  Qed.
  Lemma push_all : forall n os (l : list O), fold_left (push n) os (lastn n l) = lastn n (l ++ os).
  Proof. intros n os. induction os as [|o os IH]; intros l; cbn [fold_left]; [now rewrite app_nil_r|]. rewrite push_lastn, IH, <- app_assoc. reflexivity. Qed.
  Lemma lastn_short : forall n (l : list O), length l <= n -> lastn n l = l. Proof. intros n l H. unfold lastn. now replace (length l - n) with 0 by lia. Qed.
  Lemma lastn_exact : forall n (l m : list O), length m = n -> lastn n (l ++ m) = m.
  Proof. intros n l m H. unfold lastn. rewrite app_length, H. replace (length l + n - n) with (length l) by lia. rewrite skipn_app, skipn_all, Nat.sub_diag. reflexivity. Qed.
  Lemma push_len : forall n (q : list O) o, length q <= n -> length (push n q o) <= n. Proof. intros n q o H. unfold push. rewrite skipn_length, app_length. cbn. lia. Qed.
  Lemma stack_reset_is : forall n s q qo w, length q <= n -> (stack_reset e n (s, q) = Some (qo, w) <-> exists o s', ereset e s = Some (o, s') /\ qo = repeat o n /\ w = (s', repeat o n)).
  Proof.
    intros n s q qo w Hq. unfold stack_reset. cbn [fst snd]. destruct (ereset e s) as [[o s1]|]; cbn [bind]; [|split; [discriminate|intros (o & s' & H & _); discriminate]].
    assert (F : fold_left (push n) (repeat o n) q = repeat o n) by (rewrite <- (lastn_short n q Hq) at 1; rewrite push_all; apply lastn_exact, repeat_length). rewrite F. unfold stack_obs. rewrite repeat_length, Nat.eqb_refl.
    split; [intros H; injection H as <- <-; now exists o, s1|intros (o' & s' & H & -> & ->); now injection H as -> ->].
  Qed.
  Lemma stack_step_is : forall n s (l : list O) a qo r d w, n <= length l ->
    (stack_step e n (s, lastn n l) a = Some (qo, r, d, w) <-> exists o s', estep e s a = Some (o, r, d, s') /\ qo = lastn n (l ++ [o]) /\ w = (s', qo)).
  Proof.
    intros n s l a qo r d w Hl. unfold stack_step. cbn [fst snd]. destruct (estep e s a) as [[[[o1 r1] d1] s1]|]; cbn [bind]; [|split; [discriminate|intros (o & s' & H & _); discriminate]].
    rewrite push_lastn. unfold stack_obs. assert (length (lastn n (l ++ [o1])) =? n = true) as -> by (apply Nat.eqb_eq; unfold lastn; rewrite skipn_length, app_length; cbn; lia). cbn [bind].
    split; [intros H; injection H as <- <- <- <-; now exists o1, s1|intros (o & s' & H & -> & ->); now injection H as -> -> -> ->].
  Qed.
End Proofs.

Lemma stack_steps {S A O} (e : env S A O) n : forall tr s (l : list O) w, n <= length l -> Forall (fun x => exists a q r d, x = Stp a q r d) tr -> run (stack_env e n) (s, lastn n l) tr w ->
  exists otr s' q', w = (s', q') /\ run e s otr s' /\ same_but n l tr otr.
Proof.
  induction tr as [|x tr IH]; intros s l w Hl Fa R.
  - inversion R; subst. exists [], s, (lastn n l). split; [reflexivity|]. split; constructor.
  - apply Forall_cons_iff in Fa. destruct Fa as [(a & q & r & d & ->) Fa]. inversion R as [| |? ? ? ? ? w1 ? ? E R']; subst. cbn [stack_env estep] in E. apply stack_step_is in E; [|exact Hl]. destruct E as (o & s1 & E & -> & ->).
    destruct (IH s1 (l ++ [o]) w) as (otr & s' & q' & Hw & Ro & Sb); [rewrite app_length; lia|exact Fa|exact R'|]. exists (Stp a o r d :: otr), s', q'. split; [exact Hw|]. split; [econstructor; [exact E|exact Ro]|]. now constructor.
Qed.
Lemma stack_episode {S A O} (e : env S A O) n : forall s q0 q tr w, length q0 <= n -> Forall (fun x => exists a q r d, x = Stp a q r d) tr -> run (stack_env e n) (s, q0) (Rst q :: tr) w ->
  exists o otr s' q', w = (s', q') /\ run e s (Rst o :: otr) s' /\ q = repeat o n /\ same_but n (repeat o n) tr otr.
Proof.
  intros s q0 q tr w Hq Fa R. inversion R as [|? ? w1 ? ? E R'|]; subst. cbn [stack_env ereset] in E. apply stack_reset_is in E; [|exact Hq]. destruct E as (o & s1 & E & -> & ->).
  rewrite <- (lastn_short n (repeat o n)) in R' by now rewrite repeat_length. apply stack_steps in R'; [|now rewrite repeat_length|exact Fa]. destruct R' as (otr & s' & q' & Hw & Ro & Sb). exists o, otr, s', q'. split; [exact Hw|]. split; [econstructor; [exact E|exact Ro]|]. split; [reflexivity|exact Sb].
Qed.

(** *** The wrapped game is never stepped after its end *)
Section Life.
  Context {S A O : Type}.
  Variable e : env S A O.
  Variable noop : A.
  Variable lives : S -> Z.
  Let L := life_env (recorded e) noop (fun w => lives (fst w)).
  Lemma legal_app : forall (t1 : list (event A O)) x b, legal b (t1 ++ [x]) <-> legal b t1 /\ (match x with Rst _ => True | Stp _ _ _ _ => match rev t1 with y :: _ => over y = false | [] => b = false end end).
  Proof.
    induction t1 as [|y t1 IH]; intros x b; cbn [app legal rev].
    - destruct x; tauto.
    - destruct y; cbn [legal]; rewrite IH; destruct x; destruct (rev t1); cbn; tauto.
  Qed.
  Hypothesis quiet : forall s o r d s', (0 < lives s)%Z -> estep e s noop = Some (o, r, d, s') -> d = false.
  (** The state after a disciplined prefix: [ended] as the caller sees it. *)
  Definition inv (first ended : bool) (w : S * list (event A O) * Z * bool) : Prop :=
    let '(s, log, _, real) := w in
    legal true log /\
    (if first then log = [] /\ real = true /\ ended = true
     else exists x u, log = u ++ [x] /\ (ended = false -> over x = false) /\ (ended = true -> real = over x /\ (real = false -> (0 < lives s)%Z))).
  Lemma inv_run : forall tr w w' first ended, run L w tr w' -> inv first ended w -> disciplined ended tr -> legal true (snd (fst (fst w'))).
  Proof.
    intros tr. induction tr as [|x tr IH]; intros [[[s log] l] real] w' first ended R I Di.
    - inversion R; subst. apply I.
    - destruct I as [Le I]. destruct x as [o|a o r d].
      + cbn [disciplined] in Di. destruct Di as [-> Di]. inversion R as [|? ? w1 ? ? E R'|]; subst. cbn [L life_env ereset] in E. destruct real.
        * apply life_reset_real in E. destruct E as ([s1 log1] & E & ->). cbn [recorded ereset fst snd] in E. destruct (ereset e s) as [[o1 s2]|] eqn:E1; cbn [bind] in E; [|discriminate]. injection E as -> <- <-.
          apply (IH _ w' false false R'); [|exact Di]. split; [apply legal_app; tauto|]. exists (Rst o), log. split; [reflexivity|]. split; [reflexivity|discriminate].
        * destruct first; [destruct I as (_ & X & _); discriminate|]. destruct I as (x & u & Lg & _ & Hr). destruct (Hr eq_refl) as [Ov Lv]. specialize (Lv eq_refl). apply life_reset_noop in E. destruct E as (r1 & d1 & [s1 log1] & E & ->). cbn [recorded estep fst snd] in E. destruct (estep e s noop) as [[[[o1 r2] d2] s2]|] eqn:E1; cbn [bind] in E; [|discriminate]. injection E as -> -> -> <- <-.
          assert (Q : d1 = false) by now apply (quiet s o r1 d1 s2). subst d1.
          apply (IH _ w' false false R'); [|exact Di]. split; [apply legal_app; split; [exact Le|]; rewrite Lg, rev_app_distr; cbn; now symmetry|]. exists (Stp noop o r1 false), log. split; [reflexivity|]. split; [reflexivity|discriminate].
      + cbn [disciplined] in Di. destruct Di as [-> Di]. inversion R as [| |? ? ? ? ? w1 ? ? E R']; subst. cbn [L life_env estep] in E. apply life_step_iff in E. destruct E as (d' & [s1 log1] & E & -> & Hd). cbn [recorded estep fst snd] in *. destruct (estep e s a) as [[[[o1 r2] d2] s2]|] eqn:E1; cbn [bind] in E; [|discriminate]. injection E as -> -> -> <- <-.
        destruct first; [destruct I as (_ & _ & X); discriminate|]. destruct I as (x & u & Lg & Hx & _). specialize (Hx eq_refl).
        apply (IH _ w' false d R'); [|exact Di]. split; [apply legal_app; split; [exact Le|]; rewrite Lg, rev_app_distr; cbn; exact Hx|]. exists (Stp a o r d'), log. split; [reflexivity|]. split.
        * intros ->. cbn. destruct d'; [|reflexivity]. assert (false = true) by (apply Hd; now left). discriminate.
        * intros ->. split; [reflexivity|]. intros ->. destruct (proj1 Hd eq_refl) as [X|X]; [discriminate|lia].
  Qed.
  Lemma life_legal : forall s tr s' log l real, run L ((s, []), 0%Z, true) tr (s', log, l, real) -> disciplined true tr -> legal true log.
  Proof. intros s tr s' log l real R Di. apply (inv_run tr _ _ true true R); [|exact Di]. split; [exact I|]. repeat split. Qed.
End Life.
Lemma sign_of : forall r, (0 < r -> sign r = 1)%Q /\ (r == 0 -> sign r = 0)%Q /\ (r < 0 -> sign r = (-1))%Q.
Proof.
  intros r. unfold sign. repeat split; intros H.
  - assert (E : (r ?= 0)%Q = Gt) by (now apply Qgt_alt). now rewrite E.
  - assert (E : (r ?= 0)%Q = Eq) by (now apply Qeq_alt). now rewrite E.
  - assert (E : (r ?= 0)%Q = Lt) by (now apply Qlt_alt). now rewrite E.
Qed.

Section Skip.
  Context {S A O : Type}.
  Variable e : env S A O.
  Variable omax : O -> O -> O.
  Lemma repeats_step : forall skip s b a tr d s', run e s tr s' -> repeats a skip tr d ->
    skip_step e omax skip (s, b) a = Some (omax (fst (frames skip 0 tr b)) (snd (frames skip 0 tr b)), fold_left Qplus (map reward_of tr) 0%Q, d, (s', frames skip 0 tr b)).
  Proof. intros skip s b a tr d s' R (u & x & T & Fa & L & On & Ov & En). apply skip_iff. exists tr, u, x. repeat (split; [assumption|]). split; [reflexivity|]. split; reflexivity. Qed.
  Lemma step_repeats : forall skip s b a o r d s' b', skip_step e omax skip (s, b) a = Some (o, r, d, (s', b')) -> exists tr, run e s tr s' /\ repeats a skip tr d /\ r = fold_left Qplus (map reward_of tr) 0%Q.
  Proof. intros skip s b a o r d s' b' H. apply skip_iff in H. destruct H as (tr & u & x & T & R & Fa & L & On & Ov & En & Hr & _). exists tr. split; [exact R|]. split; [|exact Hr]. exists u, x. repeat (split; [assumption|]). exact En. Qed.
  Lemma skip_max : forall skip s b a u x y d s', run e s (u ++ [x; y]) s' -> repeats a skip (u ++ [x; y]) d -> length (u ++ [x; y]) = skip ->
    exists r, skip_step e omax skip (s, b) a = Some (omax (obs_of x) (obs_of y), r, d, (s', (obs_of x, obs_of y))).
  Proof. intros skip s b a u x y d s' R Rp L. eexists. rewrite (repeats_step skip s b a _ d s' R Rp), (frames_full skip u x y b L). reflexivity. Qed.
  Lemma skip_stale : forall skip s b a tr d s', run e s tr s' -> repeats a skip tr d -> length tr + 2 <= skip -> exists r, skip_step e omax skip (s, b) a = Some (omax (fst b) (snd b), r, d, (s', b)).
  Proof. intros skip s b a tr d s' R Rp L. eexists. rewrite (repeats_step skip s b a _ d s' R Rp), (frames_stale skip tr b L). reflexivity. Qed.
  Lemma skip_half : forall skip s b a u x d s', run e s (u ++ [x]) s' -> repeats a skip (u ++ [x]) d -> length (u ++ [x]) + 1 = skip -> exists r, skip_step e omax skip (s, b) a = Some (omax (obs_of x) (snd b), r, d, (s', (obs_of x, snd b))).
  Proof. intros skip s b a u x d s' R Rp L. eexists. rewrite (repeats_step skip s b a _ d s' R Rp), (frames_half skip u x b) by (rewrite app_length in L; cbn in L; rewrite ?app_length; cbn; lia). reflexivity. Qed.
  Lemma skip_single : forall s b a x d s', run e s [x] s' -> repeats a 1 [x] d -> exists r, skip_step e omax 1 (s, b) a = Some (omax (fst b) (obs_of x), r, d, (s', (fst b, obs_of x))).
  Proof. intros s b a x d s' R Rp. eexists. rewrite (repeats_step 1 s b a _ d s' R Rp), frames_one. reflexivity. Qed.
End Skip.
Lemma clip_run {S A O} (e : env S A O) : forall tr s s', run (clip_env e) s tr s' -> exists otr, run e s otr s' /\ Forall2 (fun x y => match y with Rst o => x = Rst o | Stp a o r d => x = Stp a o (sign r) d end) tr otr.
Proof.
  induction tr as [|x tr IH]; intros s s' R.
  - inversion R; subst. exists []. split; constructor.
  - inversion R as [|? o s1 ? ? E R'|? a o r d s1 ? ? E R']; subst.
    + destruct (IH s1 s' R') as (otr & Ro & F). exists (Rst o :: otr). split; [econstructor; [exact E|exact Ro]|constructor; [reflexivity|exact F]].
    + cbn [clip_env estep] in E. destruct (estep e s a) as [[[[o1 r1] d1] s2]|] eqn:G; cbn [bind] in E; [|discriminate]. injection E as -> <- -> ->. destruct (IH s1 s' R') as (otr & Ro & F). exists (Stp a o r1 d :: otr). split; [econstructor; [exact G|exact Ro]|constructor; [reflexivity|exact F]].
Qed.
Lemma warp_iff : forall sh, warp_shape sh = Some warp_declared <-> sh = [84; 84].
Proof. intros sh. unfold warp_shape, warp_declared. destruct sh as [|h [|w more]]; split; intros H; try discriminate. - injection H as -> -> ->. reflexivity. - injection H as -> -> ->. reflexivity. Qed.
