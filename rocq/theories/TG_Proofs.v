From Coq Require Import List Arith QArith Bool Lia.
From Verif Require Import TG_Model TG_Spec.
Import ListNotations.
Open Scope nat_scope.

Section Latest.
  Context {X : Type}.
  Variable T : nat.
  Hypothesis HT : T <> 0.
  (** The entry i of an array written at the places t mod T. *)
  Fixpoint latest (f : nat -> X) (d : X) (t i : nat) : X := match t with 0 => d | S u => if u mod T =? i then f u else latest f d u i end.
  Definition arr (f : nat -> X) (d : X) (t : nat) : list X := map (latest f d t) (seq 0 T).
  Lemma arr_0 : forall f d, arr f d 0 = repeat d T.
  Proof. intros. unfold arr. clear HT. generalize 0 at 2. induction T; cbn; intros; auto. now rewrite IHn. Qed.
  Lemma set_map : forall n s i (g : nat -> X) x, i < n -> set i x (map g (seq s n)) = map (fun j => if s + i =? j then x else g j) (seq s n).
  Proof.
    induction n as [|n IH]; intros s i g x H; [lia|]. cbn [seq map]. destruct i as [|i].
    - unfold set. cbn. rewrite Nat.add_0_r, Nat.eqb_refl. f_equal. apply map_ext_in. intros j Hj. apply in_seq in Hj. destruct (Nat.eqb_spec s j); auto. lia.
    - unfold set. cbn [firstn skipn app]. specialize (IH (S s) i g x ltac:(lia)). unfold set in IH. rewrite IH.
      destruct (Nat.eqb_spec (s + S i) s); [lia|]. f_equal. apply map_ext. intro j. now rewrite <- Nat.add_succ_comm.
  Qed.
  Lemma arr_S : forall f d t, set (t mod T) (f t) (arr f d t) = arr f d (S t).
  Proof.
    intros. unfold arr. rewrite set_map by (now apply Nat.mod_upper_bound). apply map_ext. intro j. cbn [latest]. reflexivity.
  Qed.
  Lemma latest_at : forall f d t i, i < t -> t - i <= T -> latest f d t (i mod T) = f i.
  Proof.
    induction t as [|t IH]; intros i H1 H2; [lia|]. cbn. destruct (Nat.eq_dec i t) as [->|N]. now rewrite Nat.eqb_refl.
    destruct (Nat.eqb_spec (t mod T) (i mod T)) as [E|_]; [|apply IH; lia]. exfalso.
    assert (M : (t - i) mod T = 0).
    { pose proof (Nat.div_mod t T HT). pose proof (Nat.div_mod i T HT).
      assert (i / T <= t / T) by (apply Nat.div_le_mono; lia).
      replace (t - i) with ((t / T - i / T) * T) by nia. now apply Nat.mod_mul. }
    rewrite Nat.mod_small in M; lia.
  Qed.
  Lemma latest_none : forall f d t i, (forall u, u < t -> u mod T <> i) -> latest f d t i = d.
  Proof. induction t as [|t IH]; intros i H; auto. cbn. destruct (Nat.eqb_spec (t mod T) i) as [E|_]. destruct (H t); auto. apply IH. auto. Qed.
  Lemma arr_full : forall f d k, arr f d ((k + 1) * T) = map f (seq (k * T) T).
  Proof.
    intros. unfold arr.
    assert (E : forall n s, s + n <= T -> map (latest f d ((k + 1) * T)) (seq s n) = map f (seq (k * T + s) n)).
    { induction n as [|n IH]; cbn; intros s H; auto. rewrite IH by lia. rewrite (Nat.add_succ_r (k * T) s). f_equal.
      rewrite <- (latest_at f d ((k + 1) * T) (k * T + s)) by nia. rewrite (Nat.add_comm (k * T) s), Nat.mod_add, Nat.mod_small by lia. reflexivity. }
    rewrite (E T 0) by lia. now rewrite Nat.add_0_r.
  Qed.
  Lemma arr_nth : forall f d t i, i < T -> nth_error (arr f d t) i = Some (latest f d t i).
  Proof.
    intros f d t i H. unfold arr. rewrite nth_error_map. rewrite (nth_error_nth' _ 0) by (now rewrite seq_length). cbn. now rewrite seq_nth.
  Qed.
End Latest.

Section Gen.
  Context {S A O P : Type}.
  Variables (ereset : S -> S) (enext : S -> A -> S) (obs_of : S -> O) (rew : S -> A -> Q) (done_of : S -> A -> bool) (info_r : S -> A -> option Q).
  Variable policy : nat -> O -> option (P * bool) -> A * Q * P.
  Variables (p0 : P) (clip : A -> A) (giver : option (O -> A -> Q)) (is_vec : bool) (goes_on : nat -> bool) (T : nat).
  Hypothesis HT : T <> 0.
  Variables (s : S) (a0 : A).
  Notation life := (life ereset enext obs_of done_of policy p0 clip is_vec T s).
  Notation world := (world ereset enext obs_of done_of policy p0 clip is_vec T s).
  Notation obs_at := (obs_at ereset enext obs_of done_of policy p0 clip is_vec T s).
  Notation answer_at := (answer_at ereset enext obs_of done_of policy p0 clip is_vec T s).
  Notation act_at := (act_at ereset enext obs_of done_of policy p0 clip is_vec T s).
  Notation true_at := (true_at ereset enext obs_of rew done_of policy p0 clip is_vec T s).
  Notation rew_at := (rew_at ereset enext obs_of rew done_of policy p0 clip giver is_vec T s).
  Notation done_at := (done_at ereset enext obs_of done_of policy p0 clip is_vec T s).
  Notation first_at := (first_at ereset enext obs_of done_of policy p0 clip is_vec T s).
  Notation value_at := (value_at ereset enext obs_of done_of policy p0 clip is_vec T s).
  Notation since := (since ereset enext obs_of done_of policy p0 clip is_vec T s).
  Notation length_at := (length_at ereset enext obs_of done_of policy p0 clip is_vec T s).
  Notation ret_at := (ret_at ereset enext obs_of rew done_of info_r policy p0 clip giver is_vec T s).
  Notation tret_at := (tret_at ereset enext obs_of rew done_of info_r policy p0 clip is_vec T s).
  Notation ends_in := (ends_in ereset enext obs_of done_of policy p0 clip is_vec T s).
  Notation segment_of := (segment_of ereset enext obs_of rew done_of info_r policy p0 clip giver is_vec T s).
  Notation calls_before := (calls_before T).
  Notation boundary := (boundary T).
  Notation run := (run ereset enext obs_of rew done_of info_r policy clip giver is_vec goes_on T).
  Notation act := (act ereset enext obs_of rew done_of info_r clip giver is_vec goes_on T).
  Notation ask := (ask policy).
  Notation ask_again := (ask_again policy).

  Definition o0 := obs_of (ereset s).
  Definition cur (f : nat -> Q) (t : nat) : Q := match t with 0 => 0%Q | Datatypes.S u => if first_at t then 0%Q else since f u end.
  Definition curlen (t : nat) : nat := match t with 0 => 0 | Datatypes.S u => if first_at t then 0 else length_at u end.
  (** The generator with the segment begun at step [base], before step t. *)
  Definition G (c base t : nat) (a : A) (v : Q) : gen :=
    Gen (world t) (obs_at t) (snd (fst (life t))) (snd (life t)) (first_at t) c t
      (arr T obs_at o0 t) (arr T rew_at 0%Q t) (arr T done_at false t) (arr T first_at false t) (arr T true_at 0%Q t) (arr T value_at 0%Q t) (arr T act_at a0 t)
      (cur rew_at t) (cur true_at t) (curlen t) (t - base)
      (map ret_at (ends_in (seq base (t - base)))) (map length_at (ends_in (seq base (t - base)))) (map tret_at (ends_in (seq base (t - base)))) a v.

  Lemma start_G : start ereset obs_of p0 T s a0 = G (calls_before 0) 0 0 a0 0.
  Proof. unfold start, G. rewrite !arr_0. unfold calls_before. cbn [Nat.sub]. rewrite Nat.div_0_l by auto. reflexivity. Qed.

  Lemma ask_G : forall base t a v, exists p,
    ask (G (calls_before t) base t a v) =
      Gen (world t) (obs_at t) p (snd (life t)) (first_at t) (1 + calls_before t) t
      (arr T obs_at o0 t) (arr T rew_at 0%Q t) (arr T done_at false t) (arr T first_at false t) (arr T true_at 0%Q t) (arr T value_at 0%Q t) (arr T act_at a0 t)
      (cur rew_at t) (cur true_at t) (curlen t) (t - base)
      (map ret_at (ends_in (seq base (t - base)))) (map length_at (ends_in (seq base (t - base)))) (map tret_at (ends_in (seq base (t - base)))) (act_at t) (snd (fst (answer_at t)))
    /\ p = snd (answer_at t).
  Proof.
    intros. exists (snd (answer_at t)). split; auto. unfold G, ask. cbn [g_calls g_o g_p g_done g_s g_first g_step g_obs g_rew g_dones g_starts g_true g_vpred g_act g_ret g_tret g_len g_it g_rets g_lens g_trues].
    unfold TG_Spec.act_at, TG_Spec.answer_at. destruct (policy _ _ _) as [[a1 v1] p1]. reflexivity.
  Qed.

  Lemma life_S : forall t, life (Datatypes.S t) =
    (if done_at t && negb is_vec then ereset (enext (world t) (clip (act_at t))) else enext (world t) (clip (act_at t)), snd (answer_at t), done_at t).
  Proof.
    intro t. cbn [TG_Spec.life]. unfold TG_Spec.done_at, TG_Spec.act_at, TG_Spec.answer_at, TG_Spec.obs_at, TG_Spec.world. destruct (life t) as [[w p] d]. cbn [fst snd].
    destruct (policy _ _ _) as [[a v] p']. reflexivity.
  Qed.
  Lemma cur_since : forall f t, since f t = (cur f t + f t)%Q.
  Proof. intros f [|t]; reflexivity. Qed.
  Lemma cur_S : forall f t, cur f (Datatypes.S t) = if done_at t then 0%Q else (cur f t + f t)%Q.
  Proof. intros. rewrite <- cur_since. reflexivity. Qed.
  Lemma curlen_S : forall t, curlen (Datatypes.S t) = if done_at t then 0 else 1 + curlen t.
  Proof. intros. destruct t; reflexivity. Qed.
  Lemma len_cur : forall t, length_at t = 1 + curlen t.
  Proof. intros [|t]; reflexivity. Qed.
  Lemma ends_S : forall base t, base <= t -> ends_in (seq base (Datatypes.S t - base)) = if done_at t then ends_in (seq base (t - base)) ++ [t] else ends_in (seq base (t - base)).
  Proof.
    intros base t H. replace (Datatypes.S t - base) with (Datatypes.S (t - base)) by lia. rewrite seq_S. replace (base + (t - base)) with t by lia.
    unfold TG_Spec.ends_in. rewrite filter_app. cbn. destruct (done_at t); auto. now rewrite app_nil_r.
  Qed.

  (** The generator after the policy was asked. *)
  Definition M (base t c : nat) : gen :=
    Gen (world t) (obs_at t) (snd (answer_at t)) (snd (life t)) (first_at t) c t
      (arr T obs_at o0 t) (arr T rew_at 0%Q t) (arr T done_at false t) (arr T first_at false t) (arr T true_at 0%Q t) (arr T value_at 0%Q t) (arr T act_at a0 t)
      (cur rew_at t) (cur true_at t) (curlen t) (t - base)
      (map ret_at (ends_in (seq base (t - base)))) (map length_at (ends_in (seq base (t - base)))) (map tret_at (ends_in (seq base (t - base)))) (act_at t) (value_at t).
  Lemma act_go : forall base t c, base <= t -> goes_on t = true -> act (M base t c) = (G c base (Datatypes.S t) (act_at t) (value_at t), true).
  Proof.
    intros base t c Hb Hg. unfold act, M. cbn [g_calls g_o g_p g_done g_s g_first g_step g_obs g_rew g_dones g_starts g_true g_vpred g_act g_ret g_tret g_len g_it g_rets g_lens g_trues g_a g_v].
    rewrite Hg. unfold G. apply (f_equal (fun g => (g, true))).
    rewrite !cur_S, curlen_S, ends_S by auto.
    replace (Datatypes.S t - base) with (Datatypes.S (t - base)) by lia.
    change (rew (world t) (clip (act_at t))) with (true_at t). change (done_of (world t) (clip (act_at t))) with (done_at t).
    change (match giver with Some f => f (obs_at t) (clip (act_at t)) | None => true_at t end) with (rew_at t).
    rewrite (arr_S T HT obs_at), (arr_S T HT value_at), (arr_S T HT act_at), (arr_S T HT first_at), (arr_S T HT rew_at), (arr_S T HT done_at), (arr_S T HT true_at).
    rewrite <- !cur_since.
    assert (W : (if done_at t && negb is_vec then ereset (enext (world t) (clip (act_at t))) else enext (world t) (clip (act_at t))) = world (Datatypes.S t)).
    { change (world (Datatypes.S t)) with (fst (fst (life (Datatypes.S t)))). rewrite life_S. reflexivity. }
    rewrite W. change (obs_of (world (Datatypes.S t))) with (obs_at (Datatypes.S t)). rewrite (life_S t). cbn [fst snd].
    change (first_at (Datatypes.S t)) with (done_at t).
    destruct (done_at t); [|reflexivity]. rewrite !map_app. cbn [map]. rewrite len_cur. reflexivity.
  Qed.

  Definition base_of (t : nat) := (t - 1) / T * T.
  Lemma base_le : forall t, base_of t <= t.
  Proof. intros. unfold base_of. pose proof (Nat.mul_div_le (t - 1) T HT). lia. Qed.
  Lemma boundary_base : forall t, boundary t = true -> base_of t = (t / T - 1) * T /\ t = t / T * T /\ 1 <= t / T.
  Proof.
    intros t H. unfold TG_Spec.boundary in H. apply andb_prop in H. destruct H as [H1 H2]. apply Nat.ltb_lt in H1. apply Nat.eqb_eq in H2.
    pose proof (Nat.div_mod t T HT). assert (E : t = t / T * T) by lia. assert (1 <= t / T) by nia. split; [|split; auto].
    unfold base_of. f_equal. symmetry. apply (Nat.div_unique (t - 1) T _ (T - 1)). lia. nia.
  Qed.
  Lemma not_boundary_base : forall t, boundary t = false -> base_of t = t / T * T /\ calls_before (Datatypes.S t) = 1 + calls_before t.
  Proof.
    intros t H. unfold TG_Spec.boundary in H. apply andb_false_iff in H.
    assert (E : (t - 1) / T = t / T).
    { destruct t as [|t]. reflexivity. destruct H as [H|H]. discriminate H. apply Nat.eqb_neq in H. replace (Datatypes.S t - 1) with t by lia.
      pose proof (Nat.div_mod (Datatypes.S t) T HT). pose proof (Nat.mod_upper_bound (Datatypes.S t) T HT).
      symmetry. apply (Nat.div_unique t T _ (Datatypes.S t mod T - 1)). lia. lia. }
    unfold base_of, TG_Spec.calls_before. rewrite E. split; auto. replace (Datatypes.S t - 1) with t by lia. lia.
  Qed.
  Lemma boundary_calls : forall t, boundary t = true -> calls_before (Datatypes.S t) = 2 + calls_before t.
  Proof.
    intros t H. destruct (boundary_base t H) as [E1 [E2 E3]]. unfold TG_Spec.calls_before. replace (Datatypes.S t - 1) with t by lia.
    unfold base_of in E1. assert ((t - 1) / T = t / T - 1) by nia. lia.
  Qed.
  Lemma base_S : forall t, base_of (Datatypes.S t) = t / T * T.
  Proof. intro t. unfold base_of. now replace (Datatypes.S t - 1) with t by lia. Qed.

  (** One turn of the loop up to the step. *)
  Definition out_at (t : nat) : list (segment O A) := if boundary t then [segment_of (t / T - 1)] else [].
  Lemma before_act : forall t a v,
    (let g := ask (G (calls_before t) (base_of t) t a v) in
     if (0 <? g_step g) && (g_step g mod T =? 0) then ([yielded g true], ask_again g) else ([], g)) = (out_at t, M (t / T * T) t (calls_before (Datatypes.S t))).
  Proof.
    intros t a v. destruct (ask_G (base_of t) t a v) as [p [-> ->]]. cbn [g_step]. fold (boundary t). unfold out_at.
    destruct (boundary t) eqn:B.
    - destruct (boundary_base t B) as [E1 [E2 E3]]. f_equal.
      + f_equal. unfold yielded. cbn [g_calls g_o g_p g_done g_s g_first g_step g_obs g_rew g_dones g_starts g_true g_vpred g_act g_ret g_tret g_len g_it g_rets g_lens g_trues g_a g_v].
        assert (Et : (t / T - 1 + 1) * T = t) by (rewrite Nat.sub_add; lia).
        assert (Lt : t - base_of t = T) by (rewrite E1; nia).
        unfold TG_Spec.segment_of, next_of, steps_of. rewrite Et, Lt, E1. rewrite <- Et at 1 2 3 4 5 6 7. rewrite !(arr_full T HT). reflexivity.
      + unfold ask_again, M. cbn [g_calls g_o g_p g_done g_s g_first g_step g_obs g_rew g_dones g_starts g_true g_vpred g_act g_ret g_tret g_len g_it g_rets g_lens g_trues g_a g_v].
        rewrite boundary_calls by auto. rewrite <- E2, Nat.sub_diag. cbn [seq].
        unfold TG_Spec.value_at at 3. rewrite B.
        destruct (policy (1 + calls_before t) (obs_at t) None) as [[a1 v1] p1]. reflexivity.
    - destruct (not_boundary_base t B) as [E1 E2]. f_equal. unfold M. rewrite E1, E2.
      assert (V : value_at t = snd (fst (answer_at t))) by (unfold TG_Spec.value_at; now rewrite B). rewrite <- V. reflexivity.
  Qed.

  Lemma run_go : forall n t a v, (forall u, t <= u < t + n -> goes_on u = true) -> run n (G (calls_before t) (base_of t) t a v) = flat_map out_at (seq t n).
  Proof.
    induction n as [|n IH]; intros t a v H. reflexivity. cbn [TG_Model.run seq flat_map].
    rewrite before_act. rewrite act_go by (try apply H; pose proof (Nat.mul_div_le t T HT); lia).
    f_equal. rewrite <- base_S. apply IH. intros u Hu. apply H. lia.
  Qed.
  Lemma outs : forall n, flat_map out_at (seq 0 n) = map segment_of (seq 0 ((n - 1) / T)).
  Proof.
    induction n as [|n IH]. now rewrite Nat.div_0_l. rewrite seq_S, flat_map_app, IH. cbn [flat_map Nat.add]. rewrite app_nil_r. replace (Datatypes.S n - 1) with n by lia.
    unfold out_at. destruct (boundary n) eqn:B.
    - destruct (boundary_base n B) as [E1 [E2 E3]]. unfold base_of in E1. assert (E : (n - 1) / T = n / T - 1) by nia. rewrite E.
      replace (n / T) with (Datatypes.S (n / T - 1)) at 3 by lia. rewrite seq_S, map_app. reflexivity.
    - destruct (not_boundary_base n B) as [E1 _]. unfold base_of in E1. assert (E : (n - 1) / T = n / T) by nia. rewrite E. now rewrite app_nil_r.
  Qed.
  Lemma segments_go : forall n, (forall u, u < n -> goes_on u = true) ->
    segments ereset enext obs_of rew done_of info_r policy p0 clip giver is_vec goes_on T true s a0 n = Some (map segment_of (seq 0 ((n - 1) / T))).
  Proof.
    intros n H. unfold segments. replace (T =? 0) with false by (symmetry; now apply Nat.eqb_neq). cbn [andb negb]. f_equal.
    rewrite start_G, <- outs. replace 0 with (base_of 0) at 2. apply run_go. intros u Hu. apply H. lia. unfold base_of. cbn [Nat.sub]. now rewrite Nat.div_0_l.
  Qed.

  (** The last segment when the callback stops after step t. *)
  Definition last_segment (t : nat) : segment O A :=
    let base := t / T * T in
    Seg (arr T obs_at o0 (Datatypes.S t)) (arr T rew_at 0%Q t) (arr T done_at false t) (arr T first_at false (Datatypes.S t)) (arr T true_at 0%Q t)
      (arr T value_at 0%Q (Datatypes.S t)) (arr T act_at a0 (Datatypes.S t)) (if first_at t then 0%Q else value_at t)
      (map ret_at (ends_in (seq base (t - base)))) (map length_at (ends_in (seq base (t - base)))) (map tret_at (ends_in (seq base (t - base)))) (t - base) false.
  Lemma run_app : forall n m t a v, (forall u, t <= u < t + n -> goes_on u = true) ->
    exists a' v', run (n + m) (G (calls_before t) (base_of t) t a v) = flat_map out_at (seq t n) ++ run m (G (calls_before (t + n)) (base_of (t + n)) (t + n) a' v').
  Proof.
    induction n as [|n IH]; intros m t a v H. exists a, v. cbn. now rewrite !Nat.add_0_r.
    cbn [TG_Model.run seq flat_map Nat.add]. rewrite before_act. rewrite act_go by (try apply H; pose proof (Nat.mul_div_le t T HT); lia).
    rewrite <- base_S. destruct (IH m (Datatypes.S t) (act_at t) (value_at t)) as [a' [v' E]]. intros u Hu. apply H. lia.
    exists a', v'. rewrite E. rewrite <- app_assoc. now rewrite !Nat.add_succ_r, !Nat.add_succ_l.
  Qed.
  Lemma act_stop : forall base t c, goes_on t = false -> exists g, act (M base t c) = (g, false) /\
    yielded g false = Seg (arr T obs_at o0 (Datatypes.S t)) (arr T rew_at 0%Q t) (arr T done_at false t) (arr T first_at false (Datatypes.S t)) (arr T true_at 0%Q t)
      (arr T value_at 0%Q (Datatypes.S t)) (arr T act_at a0 (Datatypes.S t)) (if first_at t then 0%Q else value_at t)
      (map ret_at (ends_in (seq base (t - base)))) (map length_at (ends_in (seq base (t - base)))) (map tret_at (ends_in (seq base (t - base)))) (t - base) false.
  Proof.
    intros base t c Hg. eexists. split.
    - unfold act, M. cbn [g_calls g_o g_p g_done g_s g_first g_step g_obs g_rew g_dones g_starts g_true g_vpred g_act g_ret g_tret g_len g_it g_rets g_lens g_trues g_a g_v].
      rewrite Hg. reflexivity.
    - unfold yielded. cbn [g_calls g_o g_p g_done g_s g_first g_step g_obs g_rew g_dones g_starts g_true g_vpred g_act g_ret g_tret g_len g_it g_rets g_lens g_trues g_a g_v].
      now rewrite (arr_S T HT obs_at), (arr_S T HT value_at), (arr_S T HT act_at), (arr_S T HT first_at).
  Qed.
  Lemma segments_stop : forall t n, (forall u, u < t -> goes_on u = true) -> goes_on t = false -> t < n ->
    segments ereset enext obs_of rew done_of info_r policy p0 clip giver is_vec goes_on T true s a0 n = Some (map segment_of (seq 0 (t / T)) ++ [last_segment t]).
  Proof.
    intros t n H Hs Hn. unfold segments. replace (T =? 0) with false by (symmetry; now apply Nat.eqb_neq). cbn [andb negb]. f_equal.
    rewrite start_G. replace 0 with (base_of 0) at 2 by (unfold base_of; cbn [Nat.sub]; now rewrite Nat.div_0_l).
    replace n with (t + (n - t)) by lia. destruct (run_app t (n - t) 0 a0 0%Q) as [a' [v' ->]]. intros u Hu. apply H. lia.
    replace (n - t) with (Datatypes.S (n - t - 1)) by lia. cbn [TG_Model.run Nat.add]. rewrite before_act.
    destruct (act_stop (t / T * T) t (calls_before (Datatypes.S t)) Hs) as [g [-> ->]].
    rewrite app_assoc. f_equal.
    assert (E := outs (Datatypes.S t)). rewrite seq_S, flat_map_app in E. cbn [flat_map Nat.add] in E. rewrite app_nil_r in E. rewrite E. now replace (Datatypes.S t - 1) with t by lia.
  Qed.
  (** What it holds. *)
  Lemma arr_last : forall {X} (f : nat -> X) d t i, i < t mod T -> nth_error (arr T f d t) i = Some (f (t - t mod T + i)).
  Proof.
    intros X f d t i H. pose proof (Nat.mod_upper_bound t T HT). rewrite arr_nth by lia. f_equal.
    rewrite <- (latest_at T HT f d t (t - t mod T + i)); try lia.
    - f_equal. pose proof (Nat.div_mod t T HT). replace (t - t mod T + i) with (i + t / T * T) by lia. rewrite Nat.mod_add by auto. symmetry. apply Nat.mod_small. lia.
    - pose proof (Nat.mod_le t T HT). lia.
  Qed.
  Lemma arr_last_S : forall {X} (f : nat -> X) d t i, i <= t mod T -> nth_error (arr T f d (Datatypes.S t)) i = Some (f (t - t mod T + i)).
  Proof.
    intros X f d t i H. pose proof (Nat.mod_upper_bound t T HT). pose proof (Nat.mod_le t T HT). rewrite arr_nth by lia. f_equal.
    rewrite <- (latest_at T HT f d (Datatypes.S t) (t - t mod T + i)); try lia.
    f_equal. pose proof (Nat.div_mod t T HT). replace (t - t mod T + i) with (i + t / T * T) by lia. rewrite Nat.mod_add by auto. symmetry. apply Nat.mod_small. lia.
  Qed.
  Lemma arr_missing : forall {X} (f : nat -> X) d t, nth_error (arr T f d t) (t mod T) = Some (if t <? T then d else f (t - T)).
  Proof.
    intros X f d t. pose proof (Nat.mod_upper_bound t T HT). rewrite arr_nth by lia. f_equal. destruct (Nat.ltb_spec t T) as [L|L].
    - rewrite Nat.mod_small by lia. apply latest_none. intros u Hu. rewrite Nat.mod_small; lia.
    - rewrite <- (latest_at T HT f d t (t - T)) by lia. f_equal. replace t with (t - T + 1 * T) at 1 by lia. now rewrite Nat.mod_add.
  Qed.
  Notation cut := (cut ereset enext obs_of rew done_of info_r policy p0 clip giver is_vec T s).
  Notation stale := (stale ereset enext obs_of rew done_of policy p0 clip giver is_vec T s).
  Lemma base_mod : forall t, t / T * T = t - t mod T /\ t - t / T * T = t mod T.
  Proof. intro t. pose proof (Nat.div_mod t T HT). lia. Qed.
  Lemma last_cut : forall t, cut t (last_segment t) /\ stale t (last_segment t).
  Proof.
    intro t. destruct (base_mod t) as [B1 B2]. pose proof (Nat.mod_le t T HT) as L.
    assert (R : forall X (f : nat -> X), f (t - t mod T + t mod T) = f t) by (intros; f_equal; lia).
    split.
    - unfold TG_Spec.cut, last_segment, row. cbn [s_obs s_rew s_done s_start s_true s_vpred s_act s_next s_rets s_lens s_trues s_total s_continue].
      rewrite !B2, !B1. split; [|split; [|split; [|split; [|split; [|auto 10]]]]].
      + intros i Hi. rewrite !arr_last_S by lia. rewrite !arr_last by lia. auto 10.
      + rewrite arr_last_S by lia. now rewrite R.
      + rewrite arr_last_S by lia. now rewrite R.
      + rewrite arr_last_S by lia. now rewrite R.
      + rewrite arr_last_S by lia. now rewrite R.
    - unfold TG_Spec.stale, last_segment, row. cbn [s_rew s_done s_true]. now rewrite !arr_missing.
  Qed.
  Lemma segments_cut : forall t n, (forall u, u < t -> goes_on u = true) -> goes_on t = false -> t < n ->
    exists g, segments ereset enext obs_of rew done_of info_r policy p0 clip giver is_vec goes_on T true s a0 n = Some (map segment_of (seq 0 (t / T)) ++ [g]) /\ cut t g /\ stale t g.
  Proof. intros t n H Hs Hn. exists (last_segment t). split. now apply segments_stop. apply last_cut. Qed.
End Gen.

Lemma life_agree : forall {S A O P : Type} (ereset : S -> S) (enext : S -> A -> S) (obs_of : S -> O) (done_of : S -> A -> bool) (p q : nat -> O -> option (P * bool) -> A * Q * P) p0 clip is_vec T s c,
  T <> 0 -> (forall n o m, n < c -> p n o m = q n o m) -> forall t, calls_before T t <= c ->
  life ereset enext obs_of done_of p p0 clip is_vec T s t = life ereset enext obs_of done_of q p0 clip is_vec T s t.
Proof.
  intros S A O P ereset enext obs_of done_of p q p0 clip is_vec T s c HT H. induction t as [|t IH]; intro L. reflexivity.
  assert (L' : calls_before T t < c).
  { unfold calls_before in *. assert ((t - 1) / T <= (Datatypes.S t - 1) / T) by (apply Nat.div_le_mono; lia). lia. }
  cbn [life]. rewrite IH by lia. destruct (life _ _ _ _ q _ _ _ _ _ t) as [[w r] d]. rewrite H by auto. reflexivity.
Qed.
Lemma act_agree : forall {S A O P : Type} (ereset : S -> S) (enext : S -> A -> S) (obs_of : S -> O) (done_of : S -> A -> bool) (p q : nat -> O -> option (P * bool) -> A * Q * P) p0 clip is_vec T s k,
  T <> 0 -> (forall n o m, n < (k + 1) * T + (k + 1) -> p n o m = q n o m) ->
  act_at ereset enext obs_of done_of p p0 clip is_vec T s ((k + 1) * T) = act_at ereset enext obs_of done_of q p0 clip is_vec T s ((k + 1) * T).
Proof.
  intros S A O P ereset enext obs_of done_of p q p0 clip is_vec T s k HT H. unfold act_at, answer_at, obs_at, world.
  assert (C : calls_before T ((k + 1) * T) = (k + 1) * T + k).
  { unfold calls_before. f_equal. symmetry. apply (Nat.div_unique _ T k (T - 1)); nia. }
  rewrite (life_agree ereset enext obs_of done_of p q p0 clip is_vec T s _ HT H) by lia. rewrite H by lia. reflexivity.
Qed.
Lemma segments_raise : forall {S A O P : Type} (ereset : S -> S) (enext : S -> A -> S) (obs_of : S -> O) (rew : S -> A -> Q) (done_of : S -> A -> bool) (info_r : S -> A -> option Q)
    (policy : nat -> O -> option (P * bool) -> A * Q * P) (p0 : P) (clip : A -> A) (giver : option (O -> A -> Q)) (is_vec : bool) (goes_on : nat -> bool) (horizon : nat) (callback : bool) s a0 n,
  callback = false \/ horizon = 0 -> segments ereset enext obs_of rew done_of info_r policy p0 clip giver is_vec goes_on horizon callback s a0 n = None.
Proof. intros. destruct H as [-> | ->]; unfold segments; auto. now rewrite andb_false_r. Qed.
