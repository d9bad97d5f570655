(** Proofs about callbacks: which of them can raise; witnesses (C75). *)
From Coq Require Import List Arith ZArith QArith Bool Lia Lqa.
From Verif Require Import Base BaseFacts Opt_Model CB_Model CB_Spec CB_Proofs CB_Every CB_Eval.
Import ListNotations.
Open Scope nat_scope.

Section Ind.
  Context (P : cb -> Prop).
  Context (HU : forall id n, P (User id n)) (HC : forall id f n, P (Checkpoint id f n)) (HE : forall k la n c, P c -> P (Every k la n c))
    (HV0 : forall id f n b, P (Eval id f n b None)) (HV : forall id f n b c, P c -> P (Eval id f n b (Some c))) (HS : forall t n, P (StopAbove t n)) (HL : forall n l, Forall P l -> P (Chain n l)).
  Fixpoint cb_induction (c : cb) : P c :=
    match c with
    | User id n => HU id n
    | Checkpoint id f n => HC id f n
    | Every k la n ch => HE k la n ch (cb_induction ch)
    | Eval id f n b None => HV0 id f n b
    | Eval id f n b (Some ch) => HV id f n b ch (cb_induction ch)
    | StopAbove t n => HS t n
    | Chain n l => HL n l ((fix go (l : list cb) : Forall P l := match l with [] => Forall_nil _ | c :: r => Forall_cons _ (cb_induction c) (go r) end) l)
    end.
End Ind.

Lemma sound_chain n l : sound (Chain n l) <-> Forall sound l.
Proof.
  simpl. induction l as [|c l IH]; split; intros H; auto.
  - destruct H as (H1 & H2). constructor; auto. apply IH; auto.
  - inversion H; subst. split; auto. apply IH; auto.
Qed.
Lemma sound_eval id f n b c : sound (Eval id f n b (Some c)) <-> needs_parent c = true \/ sound c.
Proof. destruct c; simpl; intuition; try discriminate. Qed.

Section S.
  Context (ans : nat -> nat -> answer) (ev : nat -> nat -> Q).
  Notation on_step := (on_step ans ev).
  Notation calls := (calls ans ev).

  Lemma sound_step c : sound c -> forall par ts, exists c' e a, on_step par ts c = Some (c', e, a) /\ sound c'.
  Proof.
    induction c as [id n|id f n|k la n c IH|id f n b|id f n b c IH|t n|n l IH] using cb_induction; intros Hs par ts; simpl.
    - do 3 eexists. split; [reflexivity|exact I].
    - simpl in Hs. assert (f =? 0 = false) as -> by (apply Nat.eqb_neq; lia). do 3 eexists. split; [reflexivity|exact Hs].
    - simpl in Hs. destruct (la + k <=? ts); [|do 3 eexists; split; [reflexivity|exact Hs]].
      destruct (IH Hs None ts) as (c' & e & a & -> & S'). simpl. do 3 eexists. split; [reflexivity|exact S'].
    - destruct ((0 <? f) && (S n mod f =? 0)); [|do 3 eexists; split; [reflexivity|exact I]].
      destruct (match b with None => true | Some b0 => Qltb b0 (ev id (S n)) end); do 3 eexists; (split; [reflexivity|exact I]).
    - destruct ((0 <? f) && (S n mod f =? 0)); [|do 3 eexists; split; [reflexivity|exact Hs]].
      destruct (match b with None => true | Some b0 => Qltb b0 (ev id (S n)) end); [|do 3 eexists; split; [reflexivity|exact Hs]].
      apply sound_eval in Hs. destruct Hs as [Hn|Hs].
      + destruct c; try discriminate Hn. simpl. do 3 eexists. split; [reflexivity|]. exact I.
      + destruct (IH Hs (Some (Some (ev id (S n)))) ts) as (c' & e & a & E & S'). rewrite E. simpl. do 3 eexists. split; [reflexivity|]. apply sound_eval. auto.
    - destruct Hs.
    - apply sound_chain in Hs.
      assert (K : exists rs, Forall2 (fun c r => on_step None ts c = Some r) l rs /\ Forall sound (map (fun r => fst (fst r)) rs)).
      { induction IH as [|c l Hc Hl IHl]; [exists []; split; constructor|]. inversion Hs as [|? ? S1 S2]; subst.
        destruct (IHl S2) as (rs & F1 & F2). destruct (Hc S1 None ts) as (c' & e & a & E & S'). exists ((c', e, a) :: rs). split; constructor; auto. }
      destruct K as (rs & F1 & F2).
      assert (C : chain (on_step None ts) l Go = Some (map (fun r => fst (fst r)) rs, flat_map (fun r => snd (fst r)) rs, fold_left (fun acc r => py_and (snd r) acc) rs Go)).
      { apply chain_split. exists rs. auto. }
      rewrite C. simpl. do 3 eexists. split; [reflexivity|]. apply sound_chain. exact F2.
  Qed.
  Lemma sound_total c tss : sound c -> exists c' out, calls c tss = Some (c', out) /\ sound c'.
  Proof.
    revert c. induction tss as [|ts r IH]; intros c Hs; [exists c, []; auto|].
    destruct (sound_step c Hs None ts) as (c' & e & a & E & S'). destruct (IH c' S') as (c2 & o & F & S2). exists c2, ((e, a) :: o). split; auto.
    apply calls_cons. eauto 8.
  Qed.

  (** Misplaced thresholds. *)
  Lemma misplaced_raises thr n ts tss : calls (StopAbove thr n) (ts :: tss) = None /\
    (forall m l, In (StopAbove thr n) l -> calls (Chain m l) (ts :: tss) = None) /\
    (forall m la, calls (Every ts la m (StopAbove thr n)) (la + ts :: tss) = None).
  Proof.
    split; [reflexivity|]. split.
    - intros m l Hin. destruct (calls (Chain m l) (ts :: tss)) eqn:E; auto. exfalso.
      assert (K : exists r, calls (Chain m l) (ts :: tss) = Some r) by eauto. apply chain_total in K. rewrite Forall_forall in K. destruct (K _ Hin) as (r & Hr). discriminate Hr.
    - intros m la. simpl. assert (la + ts <=? la + ts = true) as -> by (apply Nat.leb_le; lia). reflexivity.
  Qed.

  Lemma eval_spec id f child tss c' out : 1 <= f -> (forall c thr n, child = Some c -> c <> StopAbove thr n) ->
    calls (Eval id f 0 None child) tss = Some (c', out) ->
    exists sel cout best child', length sel = length tss /\ c' = Eval id f (length tss) best child' /\
      (forall j, j < length tss -> evaluates f j -> exists b, best = Some b /\ (ev id (S j) <= b)%Q) /\
      (forall b, best = Some b -> exists j, j < length tss /\ evaluates f j /\ b = ev id (S j)) /\
      child_calls ans ev child (select sel tss) cout /\
      forall j ts, nth_error tss j = Some ts -> exists x, nth_error (spread sel cout) j = Some x /\
        (nth_error sel j = Some true <-> record (fun i => ev id (S i)) f j) /\
        (~ evaluates f j -> nth_error out j = Some idle) /\
        (evaluates f j -> ~ record (fun i => ev id (S i)) f j -> nth_error out j = Some ([EEval id ts (ev id (S j))], Go)) /\
        (record (fun i => ev id (S i)) f j -> nth_error out j = Some (EEval id ts (ev id (S j)) :: EBest id ts :: fst x, snd x)).
  Proof.
    intros Hf Hc H. destruct (eval_run ans ev id f 0 None child tss c' out Hf) as (sel & cout & b & child' & L & Cc & -> & (U1 & U2 & U3) & Lc & Ho); auto.
    { destruct child as [c|]; auto. destruct c; auto. exfalso. eapply Hc; reflexivity. }
    exists sel, cout, b, child'. split; auto. split; [reflexivity|]. split; [exact U2|]. split.
    { intros y Hy. destruct (U3 y Hy) as [X|X]; [discriminate|]. exact X. }
    split; auto. intros j ts Hj. destruct (Ho j ts Hj) as (x & X1 & X2 & X3). exists x. split; auto. simpl in X2, X3.
    assert (Hlt : j < length sel) by (rewrite L; apply nth_error_Some; congruence).
    assert (Hn : nth_error sel j = Some (nth j sel false)) by (apply nth_error_nth'; auto).
    assert (R : nth j sel false = true <-> record (fun i => ev id (S i)) f j).
    { rewrite X3. unfold record, evaluates. split; [intros (A & B & C); auto|]. intros (A & B). split; auto. split; auto. intros; discriminate. }
    split; [rewrite Hn; split; [intros K; injection K as K; apply R; auto|intros K; apply R in K; rewrite K; auto]|].
    assert (Sp : nth j sel false = false -> x = idle).
    { intros Hfa. rewrite spread_nth in X1 by auto. rewrite Hn, Hfa in X1. congruence. }
    split; [|split].
    - intros Ne. unfold evaluates in Ne. apply Nat.eqb_neq in Ne. rewrite Ne in X2. rewrite X2. destruct (nth j sel false) eqn:Nj.
      + destruct (proj1 R eq_refl) as (Nk & _). unfold evaluates in Nk. apply Nat.eqb_neq in Ne. contradiction.
      + rewrite (Sp eq_refl). reflexivity.
    - intros He Nr. unfold evaluates in He. apply Nat.eqb_eq in He. rewrite He in X2. rewrite X2. destruct (nth j sel false) eqn:Nj; [destruct (Nr (proj1 R eq_refl))|]. rewrite (Sp eq_refl). reflexivity.
    - intros Hr. pose proof Hr as (He & _). unfold evaluates in He. apply Nat.eqb_eq in He. rewrite He in X2. rewrite X2. apply R in Hr. rewrite Hr. reflexivity.
  Qed.
  Lemma threshold_spec id f thr tss c' out : 1 <= f -> calls (Eval id f 0 None (Some (StopAbove thr 0))) tss = Some (c', out) ->
    forall j, j < length tss -> (stopped_at out j <-> evaluates f j /\ (thr <= ev id (S j))%Q /\ forall i, i < j -> evaluates f i -> (ev id (S i) < thr)%Q).
  Proof. intros Hf H. apply (threshold_run ans ev id f 0 None thr 0 tss c' out Hf); auto. intros; discriminate. Qed.
End S.

(** Witnesses. *)
Lemma mask_bad : exists ans ev l tss c' out e1, calls ans ev (Chain 0 l) tss = Some (c', out) /\
  calls ans ev (User 0 0) tss = Some (User 0 1, [(e1, Stop)]) /\ In (User 0 0) l /\ forall o, In o out -> snd o <> Stop.
Proof.
  exists (fun id _ => if id =? 0 then Stop else Nothing), (fun _ _ => 0%Q), [User 0 0; User 1 0], [1]. do 3 eexists. split; [reflexivity|]. split; [reflexivity|].
  split; [left; reflexivity|]. intros o [<-|[]]. discriminate.
Qed.
Lemma threshold_second_bad : exists ev thr c1 out1 c2 out2, calls (fun _ _ => Go) ev (Eval 0 1 0 None (Some (StopAbove thr 0))) (steps_of 1 3) = Some (c1, out1) /\ stopped_at out1 2 /\
  calls (fun _ _ => Go) ev c1 (steps_of 1 3) = Some (c2, out2) /\ (forall n, 3 <= n -> (thr <= ev 0%nat n)%Q) /\ forall o, In o out2 -> snd o = Go.
Proof.
  exists (fun _ n => match n with 0 => 0%Q | 1 => 0%Q | 2 => 0%Q | 3 => 2%Q | _ => 1%Q end), 1%Q. do 4 eexists. split; [reflexivity|].
  split; [split; [eexists; reflexivity|]; intros i o Hi; destruct i as [|[|i]]; [| |lia]; intros E; injection E as <-; discriminate|].
  split; [reflexivity|]. split; [intros n Hn; destruct n as [|[|[|[|n]]]]; try lia; lra|].
  intros o Ho. simpl in Ho. repeat (destruct Ho as [<-|Ho]; [reflexivity|]). destruct Ho.
Qed.

(** Which callbacks hear of a signal. *)
Lemma notify_users s c : notify s c = map (fun id => ESignal id s) (match s with TrainingStart => users c | _ => outer c end).
Proof.
  induction c as [id n|id f n|k la n c IH|id f n b|id f n b c IH|t n|n l IH] using cb_induction.
  - destruct s; reflexivity.
  - destruct s; reflexivity.
  - cbn [notify users outer]. destruct s; try reflexivity. exact IH.
  - destruct s; reflexivity.
  - cbn [notify users outer]. destruct s; try reflexivity. exact IH.
  - destruct s; reflexivity.
  - cbn [notify]. transitivity (map (fun id => ESignal id s) (flat_map (fun c => match s with TrainingStart => users c | _ => outer c end) l)).
    + induction IH as [|c l H _ IHl]; [reflexivity|]. cbn [flat_map]. rewrite map_app, IHl, H. reflexivity.
    + destruct s; reflexivity.
Qed.
