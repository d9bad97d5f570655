(** Proofs about rollouts and the common shape of the training loops (C76, C77). *)
From Coq Require Import List Arith ZArith QArith Bool Lia Permutation.
From Verif Require Import Base BaseFacts Opt_Model Sched_Model CB_Model CB_Spec CB_Proofs CB_Every CB_Eval CB_Total LN_Model LN_Spec.
Import ListNotations.
Open Scope nat_scope.

Lemma fm_map {A B C} (g : A -> B) (h : B -> list C) l : flat_map h (map g l) = flat_map (fun x => h (g x)) l.
Proof. induction l as [|a r IH]; [reflexivity|]. simpl. rewrite IH. reflexivity. Qed.
Lemma notify_same ans ev c : forall par ts c' e a, on_step ans ev par ts c = Some (c', e, a) -> forall s, notify s c' = notify s c.
Proof.
  induction c as [id n|id f n|k la n c IH|id f n b|id f n b c IH|t n|n l IH] using cb_induction; intros par ts c' e a H s; cbn [on_step] in H.
  - injection H as <- <- <-. reflexivity.
  - destruct (f =? 0); [discriminate H|]. injection H as <- <- <-. reflexivity.
  - destruct (la + k <=? ts).
    + destruct (on_step ans ev None ts c) as [[[c1 e1] a1]|] eqn:E; [|discriminate H]. cbn in H. injection H as <- <- <-.
      simpl. destruct s; auto. eapply IH; eauto.
    + injection H as <- <- <-. reflexivity.
  - destruct ((0 <? f) && (S n mod f =? 0)); [|injection H as <- <- <-; reflexivity].
    destruct (match b with None => true | Some b0 => Qltb b0 (ev id (S n)) end); injection H as <- <- <-; reflexivity.
  - destruct ((0 <? f) && (S n mod f =? 0)); [|injection H as <- <- <-; reflexivity].
    destruct (match b with None => true | Some b0 => Qltb b0 (ev id (S n)) end); [|injection H as <- <- <-; reflexivity].
    destruct (on_step ans ev (Some (Some (ev id (S n)))) ts c) as [[[c1 e1] a1]|] eqn:E; [|discriminate H]. cbn in H. injection H as <- <- <-.
    simpl. destruct s; auto. eapply IH; eauto.
  - destruct par as [best|]; [|discriminate H]. injection H as <- <- <-. reflexivity.
  - destruct (chain (on_step ans ev None ts) l Go) as [[[l1 e1] a1]|] eqn:E; [|discriminate H]. cbn in H. injection H as <- <- <-.
    apply chain_split in E. destruct E as (rs & F & -> & _ & _). simpl. clear - IH F.
    induction F as [|c [[c1 e1] a1] l rs H F IHF]; [reflexivity|]. inversion IH; subst. simpl. rewrite IHF by auto. f_equal. eapply H2; eauto.
Qed.
Lemma calls_same ans ev c tss c' out : calls ans ev c tss = Some (c', out) -> forall s, notify s c' = notify s c.
Proof.
  revert c c' out; induction tss as [|ts r IH]; intros c c' out H s.
  - injection H as <- <-. reflexivity.
  - apply calls_cons in H. destruct H as (c1 & e & a & o & H1 & H2 & _). rewrite (IH _ _ _ H2). eapply notify_same; eauto.
Qed.
Lemma calls_app ans ev c t1 t2 c1 o1 c2 o2 : calls ans ev c t1 = Some (c1, o1) -> calls ans ev c1 t2 = Some (c2, o2) -> calls ans ev c (t1 ++ t2) = Some (c2, o1 ++ o2).
Proof.
  revert c c1 o1; induction t1 as [|ts r IH]; intros c c1 o1 H1 H2.
  - injection H1 as <- <-. exact H2.
  - apply calls_cons in H1. destruct H1 as (c' & e & a & o & Hs & Hr & ->). apply calls_cons. exists c', e, a, (o ++ o2). repeat split; auto. eapply IH; eauto.
Qed.
Lemma counts_S nt e m : counts nt e (S m) = (nt + e) :: counts (nt + e) e m.
Proof. unfold counts. simpl. f_equal; [lia|]. rewrite <- seq_shift, map_map. apply map_ext. intros i. lia. Qed.
Lemma counts_app nt e m1 m2 : counts nt e (m1 + m2) = counts nt e m1 ++ counts (nt + e * m1) e m2.
Proof.
  revert nt; induction m1 as [|m IH]; intros nt.
  - simpl. replace (nt + e * 0) with nt by lia. reflexivity.
  - rewrite Nat.add_succ_l, !counts_S. rewrite IH. simpl. do 2 f_equal. f_equal. lia.
Qed.
Lemma counts_length nt e m : length (counts nt e m) = m.
Proof. unfold counts. rewrite map_length, seq_length. reflexivity. Qed.
Lemma counts_steps e m : counts 0 e m = steps_of e m.
Proof. unfold counts, steps_of. apply map_ext. intros; lia. Qed.

Lemma stopped_snoc out o : Forall (fun x : list event * answer => snd x <> Stop) out -> snd o = Stop -> stopped_at (out ++ [o]) (length out).
Proof.
  intros F H. split.
  - exists (fst o). rewrite nth_error_app2, Nat.sub_diag by lia. destruct o; simpl in *; subst; reflexivity.
  - intros i x Hi E. rewrite nth_error_app1 in E by exact Hi. apply nth_error_In in E. rewrite Forall_forall in F. auto.
Qed.
Lemma stopped_app out1 out2 j : Forall (fun x : list event * answer => snd x <> Stop) out1 -> stopped_at out2 j -> stopped_at (out1 ++ out2) (length out1 + j).
Proof.
  intros F ((e & E) & B). split.
  - exists e. rewrite nth_error_app2 by lia. replace (length out1 + j - length out1) with j by lia. exact E.
  - intros i x Hi Ex. destruct (lt_dec i (length out1)) as [L|L].
    + rewrite nth_error_app1 in Ex by exact L. apply nth_error_In in Ex. rewrite Forall_forall in F. auto.
    + rewrite nth_error_app2 in Ex by lia. eapply (B (i - length out1)); eauto. lia.
Qed.

Section L.
  Context {St O A : Type} (enext : St -> A -> St) (rew : St -> A -> list Q) (obs_of : St -> O) (dones_of : St -> list bool)
          (act : nat -> O -> list bool -> A) (clip : A -> A)
          (ans : nat -> nat -> answer) (ev : nat -> nat -> Q).
  Notation rollout := (rollout enext rew obs_of dones_of act clip ans ev).
  Notation synced := (synced obs_of dones_of).
  Notation path := (path enext rew obs_of dones_of act clip).
  Notation after := (after enext clip).
  Notation played := (played enext clip).
  Notation rollout_log := (rollout_log enext clip).
  Notation seen := (seen enext obs_of dones_of clip).
  Notation calls := (calls ans ev).
  Notation run := (runner St O).
  Notation items := (list (item St O A)).
  Notation rows := (list (row O A)).

  Lemma rollout_spec early e n : forall (rs : run) c nt rs' c' nt' its res, rollout early e n rs c nt = Some (rs', c', nt', its, res) -> synced rs ->
    exists rows outs, path (r_q rs) (r_env rs) rows /\ calls c (counts nt e (length rows)) = Some (c', outs) /\ its = played (r_env rs) rows outs /\
      nt' = nt + e * length rows /\ r_env rs' = after (r_env rs) rows /\ r_q rs' = r_q rs + length rows /\
      ((res = Some rows /\ length rows = n /\ Forall (fun o => snd o <> Stop) outs /\ synced rs') \/
       (res = None /\ 1 <= length rows <= n /\ stopped_at outs (length rows - 1) /\ (early = true -> synced rs'))).
  Proof.
    induction n as [|n IH]; intros rs c nt rs' c' nt' its res H Sy; cbn [LN_Model.rollout] in H.
    - injection H as <- <- <- <- <-. exists [], []. simpl. do 6 (split; [try reflexivity; try exact I; lia|]). left. auto.
    - set (a := act (r_q rs) (r_obs rs) (r_dones rs)) in *. set (s' := enext (r_env rs) (clip a)) in *.
      destruct (on_step ans ev None (nt + e) c) as [[[c1 evs] an]|] eqn:E; [|discriminate H]. cbn in H.
      set (w := Row (r_obs rs) (r_dones rs) a (rew (r_env rs) (clip a))) in *. destruct Sy as (So & Sd).
      assert (Pw : forall r, path (1 + r_q rs) s' r -> path (r_q rs) (r_env rs) (w :: r)).
      { intros r Hr. simpl. repeat split; auto. unfold a. rewrite So, Sd. reflexivity. }
      destruct (match an with Stop => true | _ => false end) eqn:Ean.
      + destruct an; try discriminate Ean. injection H as <- <- <- <- <-. exists [w], [(evs, Stop)]. split; [apply Pw; exact I|]. split.
        { simpl length. rewrite counts_S. apply calls_cons. exists c1, evs, Stop, []. repeat split; auto. }
        split; [simpl; rewrite app_nil_r; reflexivity|]. split; [simpl; lia|]. split; [destruct early; reflexivity|]. split; [destruct early; simpl; lia|].
        right. split; [reflexivity|]. split; [simpl; lia|]. split; [|intros ->; split; reflexivity]. simpl. split; [eexists; reflexivity|].
        intros i o Hi. lia.
      + assert (H' : (let* q := rollout early e n (Runner s' (obs_of s') (dones_of s') (1 + r_q rs)) c1 (nt + e) in let '(rs'', c'', nt'', its', rows) := q in
            Some (rs'', c'', nt'', (IEnv (r_env rs) (clip a) :: map IEv evs) ++ its', match rows with Some l => Some (w :: l) | None => None end)) = Some (rs', c', nt', its, res)).
        { destruct an; [exact H|discriminate Ean|exact H]. }
        assert (Na : an <> Stop) by (intros ->; discriminate Ean). clear H.
        destruct (rollout early e n (Runner s' (obs_of s') (dones_of s') (1 + r_q rs)) c1 (nt + e)) as [[[[[rs2 c2] nt2] its2] res2]|] eqn:R; [|discriminate H'].
        cbn in H'. injection H' as <- <- <- <- <-.
        apply IH in R; [|split; reflexivity]. destruct R as (rw & os & P & C & -> & -> & Ee & Eq & R). simpl in P, Ee, Eq.
        exists (w :: rw), ((evs, an) :: os). split; [apply Pw; exact P|]. split.
        { simpl length. rewrite counts_S. apply calls_cons. exists c1, evs, an, os. repeat split; auto. }
        split; [reflexivity|]. split; [simpl; lia|]. split; [simpl; exact Ee|]. split; [simpl; lia|].
        destruct R as [(-> & L & F & Sy)|(-> & L & B & Sy)].
        * left. repeat split; auto; simpl; try lia; try apply Sy; auto.
        * right. split; [reflexivity|]. split; [simpl; lia|]. split; [|exact Sy]. simpl length.
          replace (S (length rw) - 1) with (length [(evs, an)] + (length rw - 1)) by (simpl; lia).
          change ((evs, an) :: os) with ([(evs, an)] ++ os). apply stopped_app; auto.
  Qed.

  (** The common shape. *)
  Section Loop.
    Context {X : Type} (ok early : bool) (e n : nat) (step : X -> nat -> rows -> O * list bool -> option (X * items)).
    Fixpoint loop (k : nat) (rs : run) (c : cb) (nt : nat) (x : X) : option (run * cb * nat * items) :=
      match k with
      | 0 => Some (rs, c, nt, [])
      | Datatypes.S k' =>
          if ok then
            let* p := rollout early e n rs c nt in let '(rs', c', nt', its, rows) := p in
            let pre := map IEv (notify RolloutStart c) ++ its ++ map IEv (notify RolloutEnd c') in
            match rows with
            | None => Some (rs', c', nt', pre)
            | Some l =>
                let* q := step x nt' l (r_obs rs', r_dones rs') in let '(x', up) := q in
                let* z := loop k' rs' c' nt' x' in let '(rs'', c'', nt'', its') := z in
                Some (rs'', c'', nt'', pre ++ up ++ its')
            end
          else None
      end.

    Lemma part_0 {Y} (l1 l2 : list Y) : length l1 = n -> part n 0 (l1 ++ l2) = l1.
    Proof. intros H. unfold part. simpl. rewrite firstn_app, H, Nat.sub_diag. simpl. rewrite app_nil_r. apply firstn_all2. lia. Qed.
    Lemma part_S {Y} (l1 l2 : list Y) j : length l1 = n -> part n (S j) (l1 ++ l2) = part n j l2.
    Proof. intros H. unfold part. f_equal. rewrite skipn_app, skipn_all2 by (simpl; lia). simpl. f_equal. lia. Qed.
    Lemma firstn_cut {Y} (l1 l2 : list Y) j : length l1 = n -> firstn (S j * n) (l1 ++ l2) = l1 ++ firstn (j * n) l2.
    Proof. intros H. rewrite firstn_app, firstn_all2 by (simpl; lia). do 2 f_equal. simpl. lia. Qed.
    Lemma after_app s (l1 l2 : rows) : after s (l1 ++ l2) = after (after s l1) l2.
    Proof. unfold LN_Spec.after. apply fold_left_app. Qed.
    Lemma path_app q s (l1 l2 : rows) : path q s l1 -> path (q + length l1) (after s l1) l2 -> path q s (l1 ++ l2).
    Proof.
      revert q s; induction l1 as [|w l1 IH]; intros q s H1 H2.
      - simpl in *. replace (q + 0) with q in H2 by lia. exact H2.
      - simpl in H1 |- *. destruct H1 as (? & ? & ? & ? & H1). repeat split; auto. apply IH; auto. simpl in H2. replace (S q + length l1) with (q + S (length l1)) by lia. exact H2.
    Qed.
    Lemma log_S s c (r1 r2 : rows) o1 o2 j : length r1 = n -> length o1 = n ->
      rollout_log n s c (r1 ++ r2) (o1 ++ o2) (S j) = rollout_log n (after s r1) c r2 o2 j.
    Proof. intros H1 H2. unfold LN_Spec.rollout_log. rewrite !part_S by auto. rewrite firstn_cut, after_app by auto. reflexivity. Qed.
    Lemma log_0 s c (r1 r2 : rows) o1 o2 : length r1 = n -> length o1 = n ->
      rollout_log n s c (r1 ++ r2) (o1 ++ o2) 0 = map IEv (notify RolloutStart c) ++ played s r1 o1 ++ map IEv (notify RolloutEnd c).
    Proof. intros H1 H2. unfold LN_Spec.rollout_log. rewrite !part_0 by auto. reflexivity. Qed.
    Lemma log_same s c c' r o j : (forall sg, notify sg c' = notify sg c) -> rollout_log n s c' r o j = rollout_log n s c r o j :> items.
    Proof. intros H. unfold LN_Spec.rollout_log. rewrite !H. reflexivity. Qed.

    Lemma loop_spec k : forall (rs : run) c nt x rs' c' nt' its, 1 <= n -> loop k rs c nt x = Some (rs', c', nt', its) -> synced rs ->
      exists u stopped rows outs upd xs,
        path (r_q rs) (r_env rs) rows /\ calls c (counts nt e (length rows)) = Some (c', outs) /\ ends n k u stopped outs /\
        its = flat_map (fun j => rollout_log n (r_env rs) c rows outs j ++ upd j) (seq 0 u) ++ (if stopped then rollout_log n (r_env rs) c rows outs u else []) /\
        xs 0 = x /\ (forall j, j < u -> step (xs j) (nt + e * n * S j) (part n j rows) (seen (r_env rs) rows (S j * n)) = Some (xs (S j), upd j)) /\
        nt' = nt + e * length rows /\ r_env rs' = after (r_env rs) rows /\ r_q rs' = r_q rs + length rows /\ (stopped = false \/ early = true -> synced rs').
    Proof.
      induction k as [|k IH]; intros rs c nt x rs' c' nt' its Hn H Sy; cbn [loop] in H.
      - injection H as <- <- <- <-. exists 0, false, [], [], (fun _ => []), (fun _ => x). simpl. repeat split; auto; try lia; apply Sy.
      - destruct ok; [|discriminate H].
        destruct (rollout early e n rs c nt) as [[[[[rs1 c1] nt1] its1] res]|] eqn:R; [|discriminate H]. cbn [bind] in H.
        pose proof (rollout_spec _ _ _ _ _ _ _ _ _ _ _ R Sy) as (r1 & o1 & P & C & -> & -> & Ee & Eq & W).
        pose proof (calls_same _ _ _ _ _ _ C) as Same. pose proof (calls_length _ _ _ _ _ _ C) as Lo. rewrite counts_length in Lo.
        destruct W as [(-> & L & F & Sy1)|(-> & L & B & Sy1)].
        + destruct (step x (nt + e * length r1) r1 (r_obs rs1, r_dones rs1)) as [[x1 up]|] eqn:Es; [|discriminate H]. cbn [bind] in H.
          destruct (loop k rs1 c1 (nt + e * length r1) x1) as [[[[rs2 c2] nt2] its2]|] eqn:Lp; [|discriminate H]. cbn [bind] in H.
          injection H as <- <- <- <-.
          apply IH in Lp; auto. destruct Lp as (u & stopped & r2 & o2 & upd & xs & P2 & C2 & En & -> & X0 & Xs & -> & Ee2 & Eq2 & Sy2).
          exists (S u), stopped, (r1 ++ r2), (o1 ++ o2), (fun j => match j with 0 => up | S j => upd j end), (fun j => match j with 0 => x | S j => xs j end).
          rewrite Ee in *. rewrite Eq in *.
          split; [apply path_app; auto|]. split; [rewrite app_length, counts_app; eapply calls_app; eauto|]. split.
          { unfold ends in *. destruct stopped.
            - destruct En as (E1 & E2 & E3 & E4). rewrite app_length. do 3 (split; [lia|]).
              replace (length o1 + length o2 - 1) with (length o1 + (length o2 - 1)) by lia. apply stopped_app; auto.
            - destruct En as (E1 & E2 & E3). rewrite app_length. repeat split; try lia. apply Forall_app; auto. }
          split.
          { assert (Q : forall j, rollout_log n (r_env rs) c (r1 ++ r2) (o1 ++ o2) (S j) = rollout_log n (after (r_env rs) r1) c1 r2 o2 j).
            { intros j. rewrite log_S by lia. symmetry. apply log_same. exact Same. }
            change (seq 0 (S u)) with (0 :: seq 1 u). rewrite <- seq_shift. cbn [flat_map]. rewrite fm_map.
            rewrite log_0 by lia. rewrite Same. rewrite <- !app_assoc. do 4 f_equal. f_equal.
            - apply flat_map_ext. intros j. rewrite Q. reflexivity.
            - destruct stopped; [|reflexivity]. rewrite Q. reflexivity. }
          split; [reflexivity|]. split.
          { intros [|j] Hj.
            - rewrite part_0 by lia. unfold LN_Spec.seen. rewrite firstn_cut by lia. simpl firstn. rewrite app_nil_r. rewrite X0.
              destruct Sy1 as (So & Sd). rewrite So, Sd, Ee in Es. replace (e * n * 1) with (e * length r1) by (rewrite L; lia). exact Es.
            - rewrite part_S by lia. unfold LN_Spec.seen. rewrite firstn_cut, after_app by lia.
              specialize (Xs j ltac:(lia)). unfold LN_Spec.seen in Xs. replace (nt + e * n * S (S j)) with (nt + e * length r1 + e * n * S j) by (rewrite L; lia). exact Xs. }
          split; [rewrite app_length; lia|]. split; [rewrite after_app; exact Ee2|]. split; [rewrite app_length; lia|exact Sy2].
        + injection H as <- <- <- <-.
          exists 0, true, r1, o1, (fun _ => []), (fun _ => x). split; [exact P|]. split; [exact C|]. split.
          { simpl. repeat split; try lia. rewrite Lo. apply B. rewrite Lo. apply B. }
          split.
          { simpl. unfold LN_Spec.rollout_log, part. simpl. rewrite !firstn_all2 by lia. rewrite Same. reflexivity. }
          split; [reflexivity|]. split; [intros; lia|]. split; [reflexivity|]. split; [exact Ee|]. split; [exact Eq|]. intros [D|D]; [discriminate D|auto].
    Qed.

    (** Totality. *)
    Lemma rollout_total : forall n (rs : run) c nt, sound c -> exists rs' c' nt' its res, rollout early e n rs c nt = Some (rs', c', nt', its, res) /\ sound c'.
    Proof.
      induction n0 as [|n0 IH]; intros rs c nt Hs; cbn [LN_Model.rollout].
      - do 5 eexists. split; [reflexivity|exact Hs].
      - destruct (sound_step ans ev c Hs None (nt + e)) as (c1 & evs & an & -> & Hs1). cbn [bind].
        destruct (IH (Runner (enext (r_env rs) (clip (act (r_q rs) (r_obs rs) (r_dones rs)))) (obs_of (enext (r_env rs) (clip (act (r_q rs) (r_obs rs) (r_dones rs)))))
          (dones_of (enext (r_env rs) (clip (act (r_q rs) (r_obs rs) (r_dones rs))))) (1 + r_q rs)) c1 (nt + e) Hs1) as (rs2 & c2 & nt2 & its2 & res2 & -> & Hs2).
        cbn [bind]. destruct an; do 5 eexists; (split; [reflexivity|auto]).
    Qed.
    Lemma loop_total (I : X -> Prop) k : ok = true -> (forall x nt l o, I x -> exists x' up, step x nt l o = Some (x', up) /\ I x') ->
      forall (rs : run) c nt x, sound c -> I x -> exists r, loop k rs c nt x = Some r.
    Proof.
      intros Ok Hstep. induction k as [|k IH]; intros rs c nt x Hs Ix; cbn [loop]; [eauto|]. rewrite Ok.
      destruct (rollout_total n rs c nt Hs) as (rs1 & c1 & nt1 & its1 & res & -> & Hs1). cbn [bind].
      destruct res as [l|]; [|eauto]. destruct (Hstep x nt1 l (r_obs rs1, r_dones rs1) Ix) as (x1 & up & -> & Ix1). cbn [bind].
      destruct (IH rs1 c1 nt1 x1 Hs1 Ix1) as ([[[rs2 c2] nt2] its2] & ->). cbn [bind]. eauto.
    Qed.
  End Loop.
End L.
