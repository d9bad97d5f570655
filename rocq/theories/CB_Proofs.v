(** Proofs about callbacks (C75). *)
From Coq Require Import List Arith ZArith QArith Bool Lia Lqa.
From Verif Require Import Base BaseFacts Opt_Model CB_Model CB_Spec.
Import ListNotations.
Open Scope nat_scope.

Section S.
  Context (ans : nat -> nat -> answer) (ev : nat -> nat -> Q).
  Notation on_step := (on_step ans ev).
  Notation calls := (calls ans ev).

  Lemma calls_cons c ts r c'' out : calls c (ts :: r) = Some (c'', out) <->
    exists c' e a o, on_step None ts c = Some (c', e, a) /\ calls c' r = Some (c'', o) /\ out = (e, a) :: o.
  Proof.
    simpl. split.
    - intros H. destruct (on_step None ts c) as [[[c' e] a]|]; [|discriminate]. simpl in H.
      destruct (calls c' r) as [[d o]|] eqn:E; [|discriminate]. simpl in H. injection H as <- <-. exists c', e, a, o. auto.
    - intros (c' & e & a & o & -> & E & ->). simpl. rewrite E. reflexivity.
  Qed.
  Lemma calls_length c tss c' out : calls c tss = Some (c', out) -> length out = length tss.
  Proof.
    revert c out. induction tss as [|ts r IH]; intros c out H.
    - simpl in H. injection H as <- <-. reflexivity.
    - apply calls_cons in H. destruct H as (d & e & a & o & _ & E & ->). simpl. f_equal. eauto.
  Qed.

  (* ---- Checkpoint ---- *)
  Lemma checkpoint_calls id f n tss : f <> 0 -> exists out, calls (Checkpoint id f n) tss = Some (Checkpoint id f (n + length tss), out) /\
    forall j ts, nth_error tss j = Some ts -> nth_error out j = Some (if S (n + j) mod f =? 0 then [ESave id ts] else [], Go).
  Proof.
    intros Hf. revert n. induction tss as [|ts r IH]; intros n.
    - exists []. rewrite Nat.add_0_r. split; [reflexivity|]. intros [|j]; discriminate.
    - destruct (IH (S n)) as (out & E & H). exists ((if S n mod f =? 0 then [ESave id ts] else [], Go) :: out). split.
      + apply calls_cons. simpl. assert (f =? 0 = false) as -> by (apply Nat.eqb_neq; auto).
        do 4 eexists. split; [reflexivity|]. split; [|reflexivity]. rewrite E. do 3 f_equal. lia.
      + intros [|j] t Hj; simpl in *.
        * injection Hj as <-. rewrite Nat.add_0_r. reflexivity.
        * rewrite (H j t Hj). rewrite Nat.add_succ_r. reflexivity.
  Qed.

  (* ---- Chain ---- *)
  Lemma chain_split {A} (f : A -> option (A * list event * answer)) l acc l' e a :
    chain f l acc = Some (l', e, a) <->
    exists rs, Forall2 (fun c r => f c = Some r) l rs /\ l' = map (fun r => fst (fst r)) rs /\ e = flat_map (fun r => snd (fst r)) rs /\
      a = fold_left (fun acc r => py_and (snd r) acc) rs acc.
  Proof.
    revert acc l' e a. induction l as [|c l IH]; intros acc l' e a; simpl.
    - split.
      + intros H. injection H as <- <- <-. exists []. repeat split; constructor.
      + intros (rs & H & -> & -> & ->). inversion H. reflexivity.
    - split.
      + intros H. destruct (f c) as [[[c' e1] a1]|] eqn:E; [|discriminate]. simpl in H.
        destruct (chain f l (py_and a1 acc)) as [[[r' e2] a2]|] eqn:K; [|discriminate]. simpl in H. injection H as <- <- <-.
        apply IH in K. destruct K as (rs & F & -> & -> & ->). exists ((c', e1, a1) :: rs). repeat split. constructor; auto.
      + intros (rs & F & -> & -> & ->). inversion F as [|? [[c' e1] a1] ? rs' H1 H2]; subst. rewrite H1. simpl.
        assert (K : exists rs0, Forall2 (fun c r => f c = Some r) l rs0 /\ map (fun r => fst (fst r)) rs' = map (fun r => fst (fst r)) rs0 /\ flat_map (fun r => snd (fst r)) rs' = flat_map (fun r => snd (fst r)) rs0 /\
          fold_left (fun acc r => py_and (snd r) acc) rs' (py_and a1 acc) = fold_left (fun acc r => py_and (snd r) acc) rs0 (py_and a1 acc)) by (exists rs'; auto).
        apply IH in K. rewrite K. reflexivity.
  Qed.

  Lemma chain_run n l tss c' out : calls (Chain n l) tss = Some (c', out) ->
    exists runs, Forall2 (fun c r => calls c tss = Some r) l runs /\
      c' = Chain (n + length tss) (map fst runs) /\
      forall k o, nth_error out k = Some o ->
        exists os, Forall2 (fun r x => nth_error (snd r) k = Some x) runs os /\
          o = (flat_map fst os, fold_left (fun acc x => py_and (snd x) acc) os Go).
  Proof.
    revert n l out. induction tss as [|ts r IH]; intros n l out H.
    - simpl in H. injection H as <- <-. exists (map (fun c => (c, [])) l). split; [|split].
      + clear. induction l; simpl; constructor; auto.
      + rewrite map_map. simpl. rewrite map_id, Nat.add_0_r. reflexivity.
      + intros [|k]; discriminate.
    - apply calls_cons in H. destruct H as (d & e & a & o & E & F & ->). simpl in E.
      destruct (chain (on_step None ts) l Go) as [[[l1 e1] a1]|] eqn:K; [|discriminate]. simpl in E. injection E as <- <- <-.
      apply chain_split in K. destruct K as (rs & F1 & -> & -> & ->).
      destruct (IH _ _ _ F) as (runs & F2 & Ec & Ho).
      assert (L : length rs = length runs). { apply Forall2_length in F2. rewrite map_length in F2. exact F2. }
      exists (map (fun p => (fst (snd p), (snd (fst (fst p)), snd (fst p)) :: snd (snd p))) (combine rs runs)). split; [|split].
      + clear Ho Ec F. revert l runs F1 F2 L. induction rs as [|[[c1 e1] a1] rs IHr]; intros l runs F1 F2 L; destruct runs as [|[c2 o2] runs]; try discriminate L.
        * inversion F1; subst. constructor.
        * inversion F1 as [|c ? l0 ? A1 A2]; subst. simpl in F2. inversion F2 as [|? ? ? ? B1 B2]; subst.
          simpl. constructor; [|apply IHr; auto]. apply calls_cons. simpl. exists c1, e1, a1, o2. auto.
      + rewrite Ec. f_equal; [simpl; lia|]. clear -L. revert runs L. induction rs as [|x rs IHr]; intros [|y runs] L; try discriminate L; simpl; f_equal; auto.
      + intros [|k] q Hq; simpl in Hq.
        * injection Hq as <-. exists (map (fun x => (snd (fst x), snd x)) rs). split.
          -- clear -L. revert runs L. induction rs as [|x rs IHr]; intros [|y runs] L; try discriminate L; simpl; constructor; auto.
          -- f_equal.
             ++ clear. induction rs; simpl; congruence.
             ++ clear. generalize Go. induction rs; intros g; simpl; auto.
        * destruct (Ho k q Hq) as (os & G & ->). exists os. split; auto.
          clear -G L. revert rs L. induction G as [|r x runs os G1 G2 IHG]; intros [|y rs] L; try discriminate L; simpl; constructor; auto.
  Qed.
  Lemma chain_total n l tss : (exists r, calls (Chain n l) tss = Some r) <-> Forall (fun c => exists r, calls c tss = Some r) l.
  Proof.
    split.
    - intros ([c out] & H). destruct (chain_run _ _ _ _ _ H) as (runs & F & _). clear -F. induction F; constructor; eauto.
    - revert n l. induction tss as [|ts r IH]; intros n l H; [eexists; reflexivity|].
      assert (K : exists rs, Forall2 (fun c x => on_step None ts c = Some x) l rs /\ Forall (fun c => exists z, calls c r = Some z) (map (fun x => fst (fst x)) rs)).
      { clear IH. induction l as [|c l IHl]; [exists []; split; constructor|]. inversion H as [|? ? ([c2 o] & H1) H2]; subst.
        destruct (IHl H2) as (rs & F1 & F2). apply calls_cons in H1. destruct H1 as (c' & e & a & o' & E & G & ->).
        exists ((c', e, a) :: rs). split; constructor; simpl; eauto. }
      destruct K as (rs & F1 & F2). destruct (IH (S n) _ F2) as ([c2 o] & G).
      assert (K : exists rs0, Forall2 (fun c r => on_step None ts c = Some r) l rs0 /\ map (fun r => fst (fst r)) rs = map (fun r => fst (fst r)) rs0 /\ flat_map (fun r => snd (fst r)) rs = flat_map (fun r => snd (fst r)) rs0 /\
          fold_left (fun acc r => py_and (snd r) acc) rs Go = fold_left (fun acc r => py_and (snd r) acc) rs0 Go) by (exists rs; auto).
      apply chain_split in K. eexists. apply calls_cons. simpl. rewrite K. simpl. do 4 eexists. split; [reflexivity|]. split; [exact G|reflexivity].
  Qed.

  Lemma fold_bool os : Forall (fun x : list event * answer => snd x <> Nothing) os -> forall g, g <> Nothing ->
    (fold_left (fun acc x => py_and (snd x) acc) os g = Stop <-> g = Stop \/ exists x, In x os /\ snd x = Stop) /\
    fold_left (fun acc x => py_and (snd x) acc) os g <> Nothing.
  Proof.
    induction 1 as [|[e a] os H1 H2 IH]; intros g Hg; simpl.
    - split; auto. split; auto. intros [?|(? & [] & _)]; auto.
    - simpl in H1. assert (P : py_and a g <> Nothing) by (destruct a; simpl; congruence). destruct (IH _ P) as (I1 & I2). split; auto.
      rewrite I1. split.
      + intros [E|(x & I & E)]; [|right; exists x; auto]. destruct a; simpl in E; auto; [|congruence]. right. exists (e, Stop). auto.
      + intros [->|(x & [<-|I] & E)].
        * left. destruct a; simpl; congruence.
        * simpl in E. subst a. left. reflexivity.
        * right. eauto.
  Qed.

  Lemma chain_spec l tss c' out : calls (Chain 0 l) tss = Some (c', out) ->
    exists runs, Forall2 (fun c r => calls c tss = Some r) l runs /\
      forall k o, nth_error out k = Some o ->
        exists os, Forall2 (fun r x => nth_error (snd r) k = Some x) runs os /\ fst o = flat_map fst os /\
          (Forall (fun x => snd x <> Nothing) os -> (snd o = Stop <-> exists x, In x os /\ snd x = Stop)).
  Proof.
    intros H. destruct (chain_run _ _ _ _ _ H) as (runs & F & _ & Ho). exists runs. split; auto.
    intros k o Hk. destruct (Ho k o Hk) as (os & G & ->). exists os. split; auto. split; [reflexivity|].
    intros B. simpl. destruct (fold_bool os B Go) as (I1 & _); [discriminate|]. rewrite I1. split; [intros [?|?]; [discriminate|auto]|auto].
  Qed.
End S.
