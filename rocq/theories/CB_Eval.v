(** Proofs about callbacks: EvalCallback, thresholds, absence of exceptions (C75). *)
From Coq Require Import List Arith ZArith QArith Bool Lia Lqa.
From Verif Require Import Base BaseFacts Opt_Model CB_Model CB_Spec CB_Proofs CB_Every.
Import ListNotations.
Open Scope nat_scope.

Lemma Qltb_lt a b : Qltb a b = true <-> (a < b)%Q.
Proof. unfold Qltb. rewrite negb_true_iff. split; intros H. - destruct (Qlt_le_dec a b); auto. apply Qle_bool_iff in q. congruence. - destruct (Qle_bool b a) eqn:E; auto. apply Qle_bool_iff in E. lra. Qed.
Lemma Qltb_ge a b : Qltb a b = false <-> (b <= a)%Q.
Proof. unfold Qltb. rewrite negb_false_iff. apply Qle_bool_iff. Qed.

Definition needs_parent (c : cb) : bool := match c with StopAbove _ _ => true | _ => false end.

Section S.
  Context (ans : nat -> nat -> answer) (ev : nat -> nat -> Q).
  Notation on_step := (on_step ans ev).
  Notation calls := (calls ans ev).

  Lemma any_parent par ts c : needs_parent c = false -> on_step par ts c = on_step None ts c.
  Proof. destruct c; simpl; auto; discriminate. Qed.
  Lemma stays_same par ts c c' e a : on_step par ts c = Some (c', e, a) -> needs_parent c' = needs_parent c.
  Proof.
    destruct c; simpl.
    - intros H; injection H as <- _ _; reflexivity.
    - destruct (freq =? 0); [discriminate|]. intros H; injection H as <- _ _; reflexivity.
    - destruct (last + k <=? ts).
      + destruct (on_step None ts c) as [[[? ?] ?]|]; [|discriminate]. simpl. intros H; injection H as <- _ _; reflexivity.
      + intros H; injection H as <- _ _; reflexivity.
    - destruct ((0 <? freq) && (S n mod freq =? 0)).
      + destruct (match best with None => true | Some b => Qltb b (ev id (S n)) end).
        * destruct child as [ch|].
          -- destruct (on_step (Some (Some (ev id (S n)))) ts ch) as [[[? ?] ?]|]; [|discriminate]. simpl. intros H; injection H as <- _ _; reflexivity.
          -- intros H; injection H as <- _ _; reflexivity.
        * intros H; injection H as <- _ _; reflexivity.
      + intros H; injection H as <- _ _; reflexivity.
    - destruct par; [|discriminate]. intros H; injection H as <- _ _; reflexivity.
    - destruct (chain (on_step None ts) l Go) as [[[? ?] ?]|]; [|discriminate]. simpl. intros H; injection H as <- _ _; reflexivity.
  Qed.

  (** [best] after some evaluations. *)
  Definition upto (best : option Q) (mean : nat -> Q) (f n : nat) (k : nat) (b : option Q) : Prop :=
    (forall x, best = Some x -> exists y, b = Some y /\ (x <= y)%Q) /\
    (forall j, j < k -> S (n + j) mod f = 0 -> exists y, b = Some y /\ (mean j <= y)%Q) /\
    (forall y, b = Some y -> best = Some y \/ exists j, j < k /\ S (n + j) mod f = 0 /\ y = mean j).

  Lemma eval_run id f n best child tss c' out : 1 <= f -> match child with Some c => needs_parent c = false | None => True end ->
    calls (Eval id f n best child) tss = Some (c', out) ->
    exists sel cout b child', length sel = length tss /\ child_calls ans ev child (select sel tss) cout /\
      c' = Eval id f (n + length tss) b child' /\ upto best (fun j => ev id (S (n + j))) f n (length tss) b /\
      length cout = length (filter (fun b => b) sel) /\
      (forall j ts, nth_error tss j = Some ts -> exists x, nth_error (spread sel cout) j = Some x /\
        nth_error out j = Some ((if S (n + j) mod f =? 0 then EEval id ts (ev id (S (n + j))) :: (if nth j sel false then [EBest id ts] else []) else []) ++ fst x, snd x) /\
        (nth j sel false = true <-> S (n + j) mod f = 0 /\ (forall b, best = Some b -> (b < ev id (S (n + j)))%Q) /\ forall i, i < j -> S (n + i) mod f = 0 -> (ev id (S (n + i)) < ev id (S (n + j)))%Q)).
  Proof.
    intros Hf. revert n best child out. induction tss as [|ts r IH]; intros n best child out Hc H.
    - simpl in H. injection H as <- <-. exists [], [], best, child. split; [reflexivity|]. split; [destruct child; simpl; eauto|].
      split; [rewrite Nat.add_0_r; reflexivity|]. split; [|split; [reflexivity|intros [|j]; discriminate]].
      split; [intros x ->; exists x; split; [reflexivity|lra]|]. split; [simpl; intros; lia|auto].
    - apply calls_cons in H. destruct H as (d & e & a & o & E & F & ->). simpl in E.
      assert (0 <? f = true) as Ef by (apply Nat.ltb_lt; lia). rewrite Ef in E. cbn [andb] in E.
      destruct (S n mod f =? 0) eqn:M.
      + destruct (match best with None => true | Some b => Qltb b (ev id (S n)) end) eqn:B.
        * (* a new best *)
          assert (K : exists child1 e1, d = Eval id f (S n) (Some (ev id (S n))) child1 /\ e = EEval id ts (ev id (S n)) :: EBest id ts :: e1 /\
             (match child1 with Some c => needs_parent c = false | None => True end) /\
             forall tl cl, child_calls ans ev child1 tl cl -> child_calls ans ev child (ts :: tl) ((e1, a) :: cl)).
          { destruct child as [ch|].
            - rewrite any_parent in E by auto. destruct (on_step None ts ch) as [[[ch1 e1] a1]|] eqn:C; [|discriminate]. simpl in E. injection E as <- <- <-.
              exists (Some ch1), e1. split; [reflexivity|]. split; [reflexivity|]. split; [rewrite (stays_same _ _ _ _ _ _ C); auto|].
              intros tl cl (c2 & G). exists c2. apply calls_cons. exists ch1, e1, a1, cl. auto.
            - injection E as <- <- <-. exists None, []. repeat split; auto. intros tl cl ->. reflexivity. }
          destruct K as (child1 & e1 & -> & -> & Hc1 & Hcc).
          destruct (IH _ _ _ _ Hc1 F) as (sel & cout & b & child' & L & Cc & Ec & U & Lc & Ho).
          exists (true :: sel), ((e1, a) :: cout), b, child'. split; [simpl; auto|]. split; [apply (Hcc _ _ Cc)|].
          split; [rewrite Ec; f_equal; simpl; lia|]. split; [|split; [simpl; auto|]].
          -- destruct U as (U1 & U2 & U3). destruct (U1 _ eq_refl) as (y & -> & Hy). split; [|split].
             ++ intros x ->. exists y. split; auto. apply Qltb_lt in B. lra.
             ++ intros [|j] Hj Hm; [rewrite Nat.add_0_r; exists y; auto|]. rewrite Nat.add_succ_r in *. apply (U2 j); [simpl in Hj; lia|exact Hm].
             ++ intros z Hz. right. destruct (U3 z Hz) as [Hb|(j & J1 & J2 & J3)].
                ** injection Hb as <-. exists 0. rewrite Nat.add_0_r. apply Nat.eqb_eq in M. split; [simpl; lia|auto].
                ** exists (S j). rewrite Nat.add_succ_r. split; [simpl; lia|auto].
          -- intros [|j] t Hj; simpl in Hj.
             ++ injection Hj as <-. exists (e1, a). rewrite Nat.add_0_r, M. split; [reflexivity|]. split; [reflexivity|]. simpl. apply Nat.eqb_eq in M. split; auto.
                intros _. split; auto. split; [|intros; lia]. intros b0 ->. apply Qltb_lt; auto.
             ++ destruct (Ho j t Hj) as (x & X1 & X2 & X3). exists x. rewrite Nat.add_succ_r. simpl. split; [exact X1|]. split; [exact X2|]. rewrite X3.
                split; intros (Y1 & Y2 & Y3).
                ** pose proof (Y2 _ eq_refl) as Hlt. split; auto. split.
                   { intros b0 ->. apply Qltb_lt in B. simpl in Hlt. lra. }
                   { intros [|i] Hi Hm. - rewrite Nat.add_0_r in *. exact Hlt. - rewrite Nat.add_succ_r in *. apply Y3; [lia|exact Hm]. }
                ** split; auto. split.
                   { intros b0 Hb. injection Hb as <-. specialize (Y3 0 ltac:(lia)). rewrite Nat.add_0_r in Y3. apply Y3. apply Nat.eqb_eq; auto. }
                   { intros i Hi Hm. specialize (Y3 (S i) ltac:(lia)). rewrite Nat.add_succ_r in Y3. apply Y3. exact Hm. }
        * (* evaluated, not better *)
          injection E as <- <- <-. destruct best as [b0|]; [|discriminate]. apply Qltb_ge in B.
          destruct (IH _ _ _ _ Hc F) as (sel & cout & b & child' & L & Cc & Ec & U & Lc & Ho).
          exists (false :: sel), cout, b, child'. split; [simpl; auto|]. split; [exact Cc|].
          split; [rewrite Ec; f_equal; simpl; lia|]. split; [|split; [simpl; auto|]].
          -- destruct U as (U1 & U2 & U3). destruct (U1 _ eq_refl) as (y & -> & Hy). split; [|split].
             ++ intros x Hx. injection Hx as <-. exists y. auto.
             ++ intros [|j] Hj Hm; [rewrite Nat.add_0_r; exists y; split; auto; lra|]. rewrite Nat.add_succ_r in *. apply (U2 j); [simpl in Hj; lia|exact Hm].
             ++ intros z Hz. destruct (U3 z Hz) as [Hb|(j & J1 & J2 & J3)]; [left; auto|]. right. exists (S j). rewrite Nat.add_succ_r. split; [simpl; lia|auto].
          -- intros [|j] t Hj; simpl in Hj.
             ++ injection Hj as <-. exists idle. rewrite Nat.add_0_r, M. split; [reflexivity|]. split; [reflexivity|]. simpl. split; [discriminate|].
                intros (_ & Y & _). specialize (Y _ eq_refl). lra.
             ++ destruct (Ho j t Hj) as (x & X1 & X2 & X3). exists x. rewrite Nat.add_succ_r. simpl. split; [exact X1|]. split; [exact X2|]. rewrite X3.
                split; intros (Y1 & Y2 & Y3).
                ** pose proof (Y2 _ eq_refl) as Hlt. split; auto. split; [auto|].
                   intros [|i] Hi Hm. { rewrite Nat.add_0_r in *. simpl in Hlt. simpl. lra. } rewrite Nat.add_succ_r in *. apply Y3; [lia|exact Hm].
                ** split; auto. split; auto.
                   intros i Hi Hm. specialize (Y3 (S i) ltac:(lia)). rewrite Nat.add_succ_r in Y3. apply Y3. exact Hm.
      + (* no evaluation *)
        injection E as <- <- <-.
        destruct (IH _ _ _ _ Hc F) as (sel & cout & b & child' & L & Cc & Ec & U & Lc & Ho).
        exists (false :: sel), cout, b, child'. split; [simpl; auto|]. split; [exact Cc|].
        split; [rewrite Ec; f_equal; simpl; lia|]. split; [|split; [simpl; auto|]].
        -- destruct U as (U1 & U2 & U3). split; [|split]; auto.
           ++ intros [|j] Hj Hm; [rewrite Nat.add_0_r in Hm; apply Nat.eqb_neq in M; contradiction|]. rewrite Nat.add_succ_r in *. apply (U2 j); [simpl in Hj; lia|exact Hm].
           ++ intros z Hz. destruct (U3 z Hz) as [Hb|(j & J1 & J2 & J3)]; [left; auto|]. right. exists (S j). rewrite Nat.add_succ_r. split; [simpl; lia|auto].
        -- intros [|j] t Hj; simpl in Hj.
           ++ injection Hj as <-. exists idle. rewrite Nat.add_0_r, M. split; [reflexivity|]. split; [reflexivity|]. simpl. split; [discriminate|].
              intros (Y & _). apply Nat.eqb_neq in M. contradiction.
           ++ destruct (Ho j t Hj) as (x & X1 & X2 & X3). exists x. rewrite Nat.add_succ_r. simpl. split; [exact X1|]. split; [exact X2|]. rewrite X3.
              split; intros (Y1 & Y2 & Y3).
              ** split; auto. split; [auto|].
                 intros [|i] Hi Hm. { rewrite Nat.add_0_r in *. apply Nat.eqb_neq in M. contradiction. } rewrite Nat.add_succ_r in *. apply Y3; [lia|exact Hm].
              ** split; auto. split; auto.
                 intros i Hi Hm. specialize (Y3 (S i) ltac:(lia)). rewrite Nat.add_succ_r in Y3. apply Y3. exact Hm.
  Qed.

  (** A reward threshold. *)
  Lemma stopped_cons o out j : stopped_at (o :: out) j <-> (j = 0 /\ snd o = Stop) \/ (exists i, j = S i /\ snd o <> Stop /\ stopped_at out i).
  Proof.
    unfold stopped_at. destruct j as [|j]; simpl.
    - split.
      + intros ((e & H) & _). injection H as ->. left. auto.
      + intros [(_ & H)|(i & H & _)]; [|discriminate]. split; [destruct o; simpl in H; subst; eauto|]. intros; lia.
    - split.
      + intros (H1 & H2). right. exists j. split; auto. split; [apply (H2 0); [lia|reflexivity]|]. split; auto. intros i x Hi Hx. apply (H2 (S i)); [lia|auto].
      + intros [(H & _)|(i & H & H1 & H2 & H3)]; [discriminate|]. injection H as <-. split; auto. intros [|i] x Hi Hx; simpl in Hx; [injection Hx as <-; auto|]. apply (H3 i); [lia|auto].
  Qed.
  Lemma threshold_run id f n best thr m tss c' out : 1 <= f -> (forall b, best = Some b -> (b < thr)%Q) ->
    calls (Eval id f n best (Some (StopAbove thr m))) tss = Some (c', out) ->
    forall j, j < length tss -> (stopped_at out j <-> S (n + j) mod f = 0 /\ (thr <= ev id (S (n + j)))%Q /\ forall i, i < j -> S (n + i) mod f = 0 -> (ev id (S (n + i)) < thr)%Q).
  Proof.
    intros Hf. revert n best m out. induction tss as [|ts r IH]; intros n best m out Hb H j Hj; [simpl in Hj; lia|].
    apply calls_cons in H. destruct H as (d & e & a & o & E & F & ->). simpl in E.
    assert (0 <? f = true) as Ef by (apply Nat.ltb_lt; lia). rewrite Ef in E. cbn [andb] in E.
    rewrite stopped_cons. cbn [snd].
    assert (Rec : forall n' best' m', n' = S n -> (forall b, best' = Some b -> (b < thr)%Q) -> calls (Eval id f n' best' (Some (StopAbove thr m'))) r = Some (c', o) -> a = Go -> (S n mod f = 0 -> (ev id (S n) < thr)%Q) ->
      ((j = 0 /\ a = Stop \/ (exists i, j = S i /\ a <> Stop /\ stopped_at o i)) <-> S (n + j) mod f = 0 /\ (thr <= ev id (S (n + j)))%Q /\ forall i, i < j -> S (n + i) mod f = 0 -> (ev id (S (n + i)) < thr)%Q)).
    { intros n' best' m' -> Hb' G -> Hlt. destruct j as [|j].
      - split.
        + intros [(_ & X)|(i & X & _)]; discriminate.
        + rewrite Nat.add_0_r. intros (Y1 & Y2 & _). specialize (Hlt Y1). lra.
      - simpl in Hj. specialize (IH _ _ _ _ Hb' G j ltac:(lia)). simpl in IH. rewrite Nat.add_succ_r. split.
        + intros [(X & _)|(i & X & _ & St)]; [discriminate|]. injection X as <-. apply IH in St. destruct St as (Y1 & Y2 & Y3). split; auto. split; auto.
          intros [|i] Hi Hm. { rewrite Nat.add_0_r in *. auto. } rewrite Nat.add_succ_r in *. apply Y3; [lia|auto].
        + intros (Y1 & Y2 & Y3). right. exists j. split; auto. split; [discriminate|]. apply IH. split; auto. split; auto.
          intros i Hi Hm. specialize (Y3 (S i) ltac:(lia)). rewrite Nat.add_succ_r in Y3. auto. }
    destruct (S n mod f =? 0) eqn:M.
    - apply Nat.eqb_eq in M. destruct (match best with None => true | Some b => Qltb b (ev id (S n)) end) eqn:B.
      + destruct (Qltb (ev id (S n)) thr) eqn:T.
        * injection E as <- _ <-. apply Qltb_lt in T. eapply Rec; [reflexivity| |exact F|reflexivity|auto]. intros b X. injection X as <-. auto.
        * injection E as <- _ <-. apply Qltb_ge in T. destruct j as [|j].
          -- rewrite Nat.add_0_r. split; [intros _; split; [exact M|split; [exact T|intros; lia]]|intros _; left; auto].
          -- split.
             ++ intros [(X & _)|(i & _ & X & _)]; [discriminate|contradiction].
             ++ intros (_ & _ & Y). specialize (Y 0 ltac:(lia)). rewrite Nat.add_0_r in Y. specialize (Y M). lra.
      + injection E as <- _ <-. destruct best as [b0|]; [|discriminate]. apply Qltb_ge in B. specialize (Hb _ eq_refl) as Hb0. eapply Rec; [reflexivity| |exact F|reflexivity|intros _; lra]. intros b X. injection X as <-. auto.
    - injection E as <- _ <-. apply Nat.eqb_neq in M. eapply Rec; [reflexivity|exact Hb|exact F|reflexivity|]. intros X; contradiction.
  Qed.
End S.
