From Coq Require Import List Arith Lia Bool QArith Permutation.
From Verif Require Import Base BaseFacts Opt_Model Opt_Facts Opt_Facts2 Space_Model Replay_Model Replay_Spec Replay_Proofs HER_Model HER_Spec.
Import ListNotations.
Open Scope nat_scope.

Lemma choice_seq a k d : 0 < k -> exists i, choice (seq a k) d = Some i /\ a <= i < a + k.
Proof.
  intros H. unfold choice. rewrite seq_length. assert (d mod k < k) by (apply Nat.mod_upper_bound; lia). exists (a + d mod k). split; [|lia].
  rewrite (nth_error_nth' _ 0) by (rewrite seq_length; auto). rewrite seq_nth by auto. reflexivity.
Qed.

Section Proofs.
Context {X G Obs Act Info : Type}.
Context (to_dict : Obs -> gdict X G) (of_dict : gdict X G -> Obs) (compute_reward : G -> G -> Info -> Q).
Context (n_goals : nat) (strat : strategy) (draws : nat -> nat) (s : nat).
Hypothesis RT : forall d, to_dict (of_dict d) = d.
Hypothesis SZ : 1 <= s.
Notation T := (transition Obs Act).
Notation etr := (@etr Obs Act Info).
Notation written := (written to_dict compute_reward strat n_goals s).
Notation blocks := (blocks to_dict compute_reward strat n_goals s).
Notation store_from := (store_from to_dict of_dict compute_reward n_goals strat draws).
Notation her_add := (her_add to_dict of_dict compute_reward n_goals strat draws).

Lemma relabel_ok (t : etr) g : relabelled to_dict compute_reward t g (relabel to_dict of_dict compute_reward t g).
Proof. unfold relabelled, relabel. do 2 eexists. split; [reflexivity|]. rewrite !RT. auto. Qed.

Lemma goal_ok buf (hist : list T) (ep : list etr) i k : fifo s hist buf -> hist <> [] -> i < length ep -> (strat = Future -> S i < length ep) ->
  exists g, sample_goal to_dict strat draws buf ep i k = Some g /\ goal_of to_dict strat s hist ep i g.
Proof.
  intros F Hh Hi Hf. unfold sample_goal, goal_of. destruct strat eqn:Es.
  - specialize (Hf eq_refl). destruct (choice_seq (i + 1) (length ep - (i + 1)) (draws k)) as (j & Ej & Hj); [lia|]. rewrite Ej. cbn [bind].
    destruct (nth_error ep j) as [t|] eqn:Et; [|apply nth_error_None in Et; lia]. cbn [bind]. eexists. split; [reflexivity|]. exists j, t. split; [lia|auto].
  - destruct (nth_error ep (length ep - 1)) as [t|] eqn:Et; [|apply nth_error_None in Et; lia]. cbn [bind]. eexists. split; [reflexivity|]. eauto.
  - destruct (choice_seq 0 (length ep) (draws k)) as (j & Ej & Hj); [lia|]. rewrite Ej. cbn [bind].
    destruct (nth_error ep j) as [t|] eqn:Et; [|apply nth_error_None in Et; lia]. cbn [bind]. eexists. split; [reflexivity|]. eauto.
  - pose proof (fifo_perm s hist buf SZ F) as P. destruct F as (_ & Hl & _). assert (0 < length hist) by (destruct hist; [congruence|simpl; lia]).
    destruct (choice_seq 0 (length (storage buf)) (draws k)) as (j & Ej & Hj); [rewrite Hl; lia|]. rewrite Ej. cbn [bind].
    destruct (nth_error (storage buf) j) as [t|] eqn:Et; [|apply nth_error_None in Et; lia]. cbn [bind].
    eexists. split; [reflexivity|]. destruct t as [[[[o a] r] o'] d]. exists o, a, r, o', d. split; [|reflexivity].
    apply nth_error_In in Et. apply (Permutation_in _ P) in Et. unfold last_n in *. replace (length hist - s) with (length hist - min (length hist) s) by lia. auto.
Qed.
Lemma goals_ok buf (hist : list T) (ep : list etr) i k : fifo s hist buf -> hist <> [] -> i < length ep -> (strat = Future -> S i < length ep) ->
  exists gs, sample_goals to_dict n_goals strat draws buf ep i k = Some gs /\ length gs = n_goals /\ Forall (goal_of to_dict strat s hist ep i) gs.
Proof.
  intros F Hh Hi Hf. unfold sample_goals.
  cut (forall m a b, exists gs, traverse (fun _ j => sample_goal to_dict strat draws buf ep i (k + j)) b (seq a m) = Some gs /\ length gs = m /\ Forall (goal_of to_dict strat s hist ep i) gs); [auto|].
  induction m as [|m IH]; intros a b; cbn [seq traverse].
  - exists []. auto.
  - destruct (goal_ok buf hist ep i (k + a) F Hh Hi Hf) as (g & Eg & Hg). rewrite Eg. cbn [bind]. destruct (IH (S a) (S b)) as (gs & E & L & Fg). rewrite E. cbn [bind]. exists (g :: gs). simpl. auto.
Qed.
Lemma store_ok (ep : list etr) : forall rest i hist out buf k, ep = firstn i ep ++ rest -> length (firstn i ep) = i -> fifo s (hist ++ out) buf -> blocks hist ep i out ->
  exists buf' k' out', store_from ep i rest buf k = Some (buf', k') /\ fifo s (hist ++ out') buf' /\ blocks hist ep (length ep) out'.
Proof.
  induction rest as [|t rest IH]; intros i hist out buf k Ep Li F B; cbn [HER_Model.store_from].
  - exists buf, k, out. split; auto. split; auto. rewrite app_nil_r in Ep. replace (length ep) with i; auto. rewrite Ep. auto.
  - assert (Et : nth_error ep i = Some t). { rewrite Ep. rewrite nth_error_app2 by lia. rewrite Li, Nat.sub_diag. reflexivity. }
    assert (Hi : i < length ep) by (apply nth_error_Some; congruence).
    destruct (put_fifo s (hist ++ out) buf (stored_as t) SZ F) as (b1 & E1 & F1). rewrite E1. cbn [bind].
    assert (Hn : (hist ++ out) ++ [stored_as t] <> []) by (destruct (hist ++ out); discriminate).
    destruct ((i =? length ep - 1) && match strat with Future => true | _ => false end) eqn:Eb.
    + apply andb_true_iff in Eb. destruct Eb as [Ei Es]. apply Nat.eqb_eq in Ei. destruct strat eqn:Est; try discriminate.
      exists b1, k, (out ++ [stored_as t]). split; auto. rewrite app_assoc. split; auto. replace (length ep) with (S i) by lia.
      eapply blocks_S with (goals := []) (ts := []); eauto. cbn [length copies]. replace (S i =? length ep) with true by (symmetry; apply Nat.eqb_eq; lia). reflexivity.
    + assert (Hf : strat = Future -> S i < length ep). { intros Est. rewrite Est in Eb. rewrite andb_true_r in Eb. apply Nat.eqb_neq in Eb. lia. }
      destruct (goals_ok b1 _ ep i k F1 Hn Hi Hf) as (gs & Eg & Lg & Fg). rewrite Eg. cbn [bind].
      destruct (puts_fifo s SZ (map (relabel to_dict of_dict compute_reward t) gs) _ _ F1) as (b2 & E2 & F2). rewrite E2. cbn [bind].
      apply (IH (S i) hist (out ++ stored_as t :: map (relabel to_dict of_dict compute_reward t) gs)).
      * rewrite Ep at 1. clear - Et. revert i Et. clear. intros i. revert ep. induction i as [|i IH]; intros [|x ep] Et; simpl in *; try discriminate.
        -- inversion Et; subst. reflexivity.
        -- f_equal. apply IH. auto.
      * rewrite firstn_length. lia.
      * rewrite <- !app_assoc in F2. exact F2.
      * eapply blocks_S with (goals := gs); eauto.
        -- rewrite Lg. unfold copies. destruct strat; auto. specialize (Hf eq_refl). replace (S i =? length ep) with false by (symmetry; apply Nat.eqb_neq; lia). reflexivity.
        -- rewrite app_assoc. exact Fg.
        -- clear - RT. induction gs as [|g gs IHg]; simpl; constructor; auto. apply relabel_ok.
Qed.
(** All calls. *)
Lemma adds_ok : forall calls (eps : list (list etr)) hist h, written eps hist -> fifo s hist (h_buf h) ->
  exists h' hist', ofold her_add h calls = Some h' /\ written (eps ++ fst (episodes (h_ep h) calls)) hist' /\ fifo s hist' (h_buf h') /\ h_ep h' = snd (episodes (h_ep h) calls).
Proof.
  induction calls as [|c calls IH]; intros eps hist h W F; cbn [ofold episodes].
  - exists h, hist. rewrite app_nil_r. auto.
  - unfold HER_Model.her_add at 1. cbv zeta. destruct (e_done c) eqn:Ed.
    + destruct (store_ok (h_ep h ++ [c]) (h_ep h ++ [c]) 0 hist [] (h_buf h) (h_drawn h) eq_refl eq_refl) as (b & k & out & E & F' & B); [rewrite app_nil_r; auto|constructor|].
      rewrite E. cbn [bind]. destruct (IH (eps ++ [h_ep h ++ [c]]) (hist ++ out) (Her [] b k)) as (h' & hist' & E' & W' & Fh & Hp); auto; [constructor; auto|].
      exists h', hist'. rewrite E'. cbn [h_ep] in *. destruct (episodes [] calls) as [es p]. cbn [fst snd] in *. rewrite <- app_assoc in W'. auto.
    + destruct (IH eps hist (Her (h_ep h ++ [c]) (h_buf h) (h_drawn h)) W F) as (h' & hist' & E' & W' & Fh & Hp). cbn [h_ep] in *. eauto 10.
Qed.
Theorem her_correct (calls : list etr) : exists h hist, ofold her_add (her_new s) calls = Some h /\
  written (fst (episodes [] calls)) hist /\ h_ep h = snd (episodes [] calls) /\
  length (storage (h_buf h)) = min (length hist) s /\ Permutation (storage (h_buf h)) (last_n (min (length hist) s) hist) /\
  (forall t, length hist - min (length hist) s <= t < length hist -> nth_error (storage (h_buf h)) (t mod s) = nth_error hist t).
Proof.
  destruct (adds_ok calls [] [] (her_new s)) as (h & hist & E & W & F & P); [constructor|apply new_fifo|].
  exists h, hist. split; auto. split; auto. split; auto. pose proof (fifo_perm s hist _ SZ F) as Pm. destruct F as (_ & L & _ & H). auto.
Qed.

(** How much is written. *)
Lemma blocks_len hist (ep : list etr) i out : blocks hist ep i out -> i <= length ep /\ length out = i + list_sum (map (copies strat n_goals ep) (seq 0 i)).
Proof.
  induction 1 as [|i out t goals ts B [H1 H2] Et L Fg F2]; [simpl; lia|]. assert (i < length ep) by (apply nth_error_Some; congruence). split; [lia|].
  rewrite app_length, H2, seq_S, map_app, list_sum_app. cbn [length map]. cbn [Nat.add]. unfold list_sum at 3. cbn [fold_right].
  assert (length ts = length goals) by (clear - F2; induction F2; simpl; auto). lia.
Qed.
Lemma sum_const {Y} (l : list Y) (g : Y -> nat) c : (forall y, In y l -> g y = c) -> list_sum (map g l) = length l * c.
Proof. induction l as [|y l IH]; intros H; simpl; auto. rewrite (H y) by (left; auto). f_equal. apply IH. intros; apply H; right; auto. Qed.
Lemma blocks_total hist (ep : list etr) out : ep <> [] -> blocks hist ep (length ep) out -> length out = contribution strat n_goals (length ep).
Proof.
  intros Ne B. apply blocks_len in B. destruct B as [_ ->]. unfold contribution, copies. assert (0 < length ep) by (destruct ep; [congruence|simpl; lia]).
  destruct strat; try (rewrite (sum_const (seq 0 (length ep)) (fun _ => n_goals) n_goals), seq_length by auto; lia).
  replace (seq 0 (length ep)) with (seq 0 (length ep - 1) ++ [length ep - 1]).
  2: { replace (length ep) with (S (length ep - 1)) at 3 by lia. rewrite seq_S. reflexivity. }
  rewrite map_app, list_sum_app. rewrite (sum_const (seq 0 (length ep - 1)) _ n_goals).
  - rewrite seq_length. cbn [map]. replace (S (length ep - 1) =? length ep) with true by (symmetry; apply Nat.eqb_eq; lia). simpl. lia.
  - intros i Hi. apply in_seq in Hi. replace (S i =? length ep) with false by (symmetry; apply Nat.eqb_neq; lia). auto.
Qed.
Theorem written_len (eps : list (list etr)) hist : written eps hist -> Forall (fun ep => ep <> []) eps -> length hist = list_sum (map (fun ep => contribution strat n_goals (length ep)) eps).
Proof.
  induction 1 as [|eps ep hist out W IH B]; intros F; auto. apply Forall_app in F. destruct F as [F1 F2]. rewrite app_length, map_app, list_sum_app, IH by auto.
  rewrite (blocks_total _ _ _ (Forall_inv F2) B). simpl. lia.
Qed.
Lemma episodes_ne : forall (calls cur : list etr), Forall (fun ep => ep <> []) (fst (episodes cur calls)).
Proof.
  induction calls as [|c calls IH]; intros cur; cbn [episodes]; [constructor|]. destruct (e_done c).
  - specialize (IH []). destruct (episodes [] calls). cbn [fst] in *. constructor; auto. destruct cur; discriminate.
  - apply IH.
Qed.
Theorem her_count (calls : list etr) : exists h, ofold her_add (her_new s) calls = Some h /\
  length (storage (h_buf h)) = min (list_sum (map (fun ep => contribution strat n_goals (length ep)) (fst (episodes [] calls)))) s.
Proof.
  destruct (her_correct calls) as (h & hist & E & W & _ & L & _). exists h. split; auto. rewrite L. f_equal. apply written_len; auto. apply episodes_ne.
Qed.
End Proofs.
