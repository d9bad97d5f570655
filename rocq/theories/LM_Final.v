(** Recurrent policies: the statements. *)
From Coq Require Import Reals List Arith Bool Lia Lra.
From Verif Require Import LM_Model LM_Spec LM_Proofs.
Import ListNotations.
Open Scope R_scope.

(** ** Batches and sequences *)
Lemma nth_error_seq : forall n a t, (t < n)%nat -> nth_error (seq a n) t = Some (a + t)%nat.
Proof.
  induction n as [|n IH]; intros a [|t] H; cbn; try lia; [f_equal; lia|]. rewrite IH by lia. f_equal. lia.
Qed.
Lemma seq_map_nth : forall {A} (f : nat -> A) n t, (t < n)%nat -> nth_error (map f (seq 0 n)) t = Some (f t).
Proof. intros A f n t H. rewrite nth_error_map, nth_error_seq by exact H. reflexivity. Qed.
Lemma b2s_nth : forall {A} (d : A) batch n_env n_steps t, (t < n_steps)%nat ->
  nth_error (batch_to_seq d batch n_env n_steps) t = Some (map (fun e => nth (e * n_steps + t) batch d) (seq 0 n_env)).
Proof. intros. unfold batch_to_seq. rewrite seq_map_nth by assumption. reflexivity. Qed.
Lemma b2s_length : forall {A} (d : A) batch n_env n_steps, length (batch_to_seq d batch n_env n_steps) = n_steps.
Proof. intros. unfold batch_to_seq. rewrite map_length, seq_length. reflexivity. Qed.
Lemma b2s_rows : forall {A} (d : A) batch n_env n_steps, Forall (fun l => length l = n_env) (batch_to_seq d batch n_env n_steps).
Proof.
  intros. unfold batch_to_seq. apply Forall_forall. intros l H. apply in_map_iff in H. destruct H as (t & <- & _).
  rewrite map_length, seq_length. reflexivity.
Qed.
Lemma concat_same : forall {A} (g : nat -> list A) T, (forall e, length (g e) = T) -> forall n a,
  length (concat (map g (seq a n))) = (n * T)%nat /\
  forall e t, (e < n)%nat -> (t < T)%nat -> nth_error (concat (map g (seq a n))) (e * T + t) = nth_error (g (a + e)%nat) t.
Proof.
  intros A g T Hg. induction n as [|n IH]; intros a; cbn [seq map concat]; [split; [reflexivity|intros; lia]|].
  destruct (IH (S a)) as (I1 & I2). split; [rewrite app_length, I1, Hg; lia|]. intros e t He Ht.
  destruct e as [|e].
  - cbn. rewrite nth_error_app1 by (rewrite Hg; exact Ht). replace (a + 0)%nat with a by lia. reflexivity.
  - rewrite nth_error_app2 by (rewrite Hg; cbn; lia). rewrite Hg. replace (S e * T + t - T)%nat with (e * T + t)%nat by (cbn; lia).
    rewrite I2 by lia. f_equal. f_equal. lia.
Qed.
Lemma s2b_length : forall {A} (d : A) n_env sq, length (seq_to_batch d n_env sq) = (n_env * length sq)%nat.
Proof.
  intros A d n_env sq. unfold seq_to_batch.
  apply (concat_same (fun e => map (fun r => nth e r d) sq) (length sq) ltac:(intros; apply map_length) n_env 0).
Qed.
Lemma s2b_nth : forall {A} (d : A) n_env sq e t l, (e < n_env)%nat -> nth_error sq t = Some l ->
  nth_error (seq_to_batch d n_env sq) (e * length sq + t) = Some (nth e l d).
Proof.
  intros A d n_env sq e t l He Ht. unfold seq_to_batch.
  destruct (concat_same (fun e => map (fun r => nth e r d) sq) (length sq) ltac:(intros; apply map_length) n_env 0) as (_ & H).
  rewrite H; [|exact He|apply nth_error_Some; congruence]. cbn. rewrite nth_error_map, Ht. reflexivity.
Qed.
Lemma nth_ext_error : forall {A} (l m : list A), length l = length m -> (forall i, (i < length l)%nat -> nth_error l i = nth_error m i) -> l = m.
Proof.
  intros A l. induction l as [|a l IH]; intros [|b m] Hl H; cbn in Hl; try lia; [reflexivity|].
  pose proof (H 0%nat ltac:(cbn; lia)) as H0. cbn in H0. injection H0 as <-. f_equal. apply IH; [lia|].
  intros i Hi. apply (H (S i)). cbn. lia.
Qed.
Lemma nth_of_error : forall {A} (l : list A) i d a, nth_error l i = Some a -> nth i l d = a.
Proof. intros. apply nth_error_nth. assumption. Qed.
Lemma b2s_s2b : forall {A B} (f : A -> B) (d : A) (d' : B) n_env sq, Forall (fun l => length l = n_env) sq ->
  batch_to_seq d' (map f (seq_to_batch d n_env sq)) n_env (length sq) = map (map f) sq.
Proof.
  intros A B f d d' n_env sq H. apply nth_ext_error; [rewrite b2s_length, map_length; reflexivity|].
  intros t Ht. rewrite b2s_length in Ht. rewrite b2s_nth by exact Ht. destruct (nth_error_ex sq t Ht) as (l & Hl).
  rewrite nth_error_map, Hl. cbn. f_equal.
  assert (Ll : length l = n_env) by (rewrite Forall_forall in H; apply H; apply nth_error_In in Hl; exact Hl).
  apply nth_ext_error; [rewrite !map_length, seq_length; lia|]. intros e He. rewrite map_length, seq_length in He.
  rewrite seq_map_nth by exact He. rewrite nth_error_map. destruct (nth_error_ex l e ltac:(lia)) as (x & Hx). rewrite Hx. cbn. f_equal.
  apply nth_of_error. rewrite nth_error_map, (s2b_nth d n_env sq e t l He Hl). cbn. f_equal. f_equal.
  apply nth_of_error. exact Hx.
Qed.

(** ** A run of the policy *)
Lemma forward_inv : forall {O} (features : O -> row) p n_env n_steps obs dones states out new,
  forward features p n_env n_steps obs dones states = Some (out, new) ->
  length obs = (n_env * n_steps)%nat /\ length dones = (n_env * n_steps)%nat /\ length states = n_env /\
  Forall (fun s => length s = (n_hidden p + n_hidden p)%nat) states /\
  let r := lstm p (batch_to_seq [] (map features obs) n_env n_steps)
    (batch_to_seq 0 (map (fun b : bool => if b then 1 else 0) dones) n_env n_steps) states in
  out = seq_to_batch [] n_env (fst r) /\ new = snd r.
Proof.
  intros O features p n_env n_steps obs dones states out new H. unfold forward in H.
  destruct (_ && _)%bool eqn:E in H; [|discriminate]. injection H as <- <-.
  apply andb_true_iff in E. destruct E as (E & E4). apply andb_true_iff in E. destruct E as (E & E3).
  apply andb_true_iff in E. destruct E as (E1 & E2). apply Nat.eqb_eq in E1, E2, E3.
  repeat split; auto. apply Forall_forall. intros s Hs. rewrite forallb_forall in E4. apply E4 in Hs. apply Nat.eqb_eq. exact Hs.
Qed.
Lemma mul_lt : forall e n t T, (e < n)%nat -> (t < T)%nat -> (e * T + t < n * T)%nat.
Proof. intros. nia. Qed.

Lemma policy_ok : forall {O} (features : O -> row) p n_env n_steps obs dones states out new e o b s,
  shaped p -> features_fit features p ->
  forward features p n_env n_steps obs dones states = Some (out, new) -> (e < n_env)%nat -> given n_steps e obs dones states o b s ->
  let X := fun t i => nth i (features (o t)) 0 in
  (forall t, (t < n_steps)%nat -> exists h, nth_error out (e * n_steps + t) = Some h /\ length h = n_hidden p /\
     forall j, (j < n_hidden p)%nat -> nth j h 0 = snd (recurrence p X b (memory_of p s) (S t)) j) /\
  exists s', nth_error new e = Some s' /\ length s' = (n_hidden p + n_hidden p)%nat /\
    forall j, (j < n_hidden p)%nat -> nth j s' 0 = fst (recurrence p X b (memory_of p s) n_steps) j /\
                                      nth (n_hidden p + j) s' 0 = snd (recurrence p X b (memory_of p s) n_steps) j.
Proof.
  intros O features p n_env n_steps obs dones states out new e o b s Sp Hf H He (G1 & G2) X.
  apply forward_inv in H. destruct H as (Lo & Ld & Ls & Fs & H). cbn zeta in H. destruct H as (-> & ->).
  set (inputs := batch_to_seq [] (map features obs) n_env n_steps).
  set (masks := batch_to_seq 0 (map (fun b : bool => if b then 1 else 0) dones) n_env n_steps).
  unfold lstm. set (ss := map (fun s0 => (slice (n_hidden p) 0 s0, slice (n_hidden p) 1 s0)) states). cbn [fst snd].
  assert (Li : length inputs = n_steps) by apply b2s_length.
  assert (Lm : length masks = n_steps) by apply b2s_length.
  destruct (loop_ok p inputs masks ss ltac:(lia)) as (K1 & K2 & K3). rewrite Li in K1, K2.
  assert (Ln : length s = (n_hidden p + n_hidden p)%nat).
  { rewrite Forall_forall in Fs. apply Fs. apply nth_error_In in G2. exact G2. }
  assert (M := mem_own p inputs masks ss e (fun t => features (o t)) b (memory_of p s) n_steps Sp).
  assert (M' : forall t, (t <= n_steps)%nat -> exists m, nth_error (mem p inputs masks ss t) e = Some m /\
    agrees (n_hidden p) m (recurrence p X b (memory_of p s) t)).
  { apply M.
    - intros t Ht. destruct (G1 t Ht) as (E1 & E2). do 2 eexists. split; [unfold inputs; apply b2s_nth; exact Ht|].
      split; [unfold masks; apply b2s_nth; exact Ht|]. rewrite !seq_map_nth by exact He. repeat split.
      + f_equal. apply nth_of_error. rewrite nth_error_map, E1. reflexivity.
      + f_equal. apply nth_of_error. rewrite nth_error_map, E2. reflexivity.
      + apply Hf.
    - exists (slice (n_hidden p) 0 s, slice (n_hidden p) 1 s). split; [unfold ss; rewrite nth_error_map, G2; reflexivity|].
      split; [|split]; cbn [fst snd memory_of].
      + apply slice_length. lia.
      + apply slice_length. lia.
      + intros j Hj. rewrite !slice_nth by exact Hj. cbn [fst snd memory_of]. split; f_equal; lia. }
  split.
  - intros t Ht. destruct (M' (S t) Ht) as (m & Em & Am). destruct Am as (A1 & A2 & A3).
    exists (snd m). replace (e * n_steps + t)%nat with (e * length (fst (loop p inputs masks ss)) + t)%nat by lia.
    rewrite (s2b_nth [] n_env _ e t _ He (K3 t ltac:(lia))). split; [|split; [exact A2|intros j Hj; apply A3; exact Hj]].
    cbn [fst]; f_equal; apply nth_of_error. rewrite nth_error_map. rewrite Em. reflexivity.
  - destruct (M' n_steps (le_n _)) as (m & Em & A1 & A2 & A3). exists (fst m ++ snd m). rewrite K1.
    rewrite nth_error_map, Em. split; [reflexivity|]. split; [rewrite app_length; lia|]. intros j Hj. destruct (A3 j Hj) as (B1 & B2).
    split; [rewrite app_nth1 by lia; exact B1|]. rewrite app_nth2 by lia. rewrite A1. replace (n_hidden p + j - n_hidden p)%nat with j by lia. exact B2.
Qed.
Lemma policy_counts : forall {O} (features : O -> row) p n_env n_steps obs dones states out new,
  forward features p n_env n_steps obs dones states = Some (out, new) -> length out = (n_env * n_steps)%nat /\ length new = n_env.
Proof.
  intros O features p n_env n_steps obs dones states out new H. apply forward_inv in H. destruct H as (Lo & Ld & Ls & Fs & H).
  cbn zeta in H. destruct H as (-> & ->). unfold lstm. cbn [fst snd].
  destruct (loop_ok p (batch_to_seq [] (map features obs) n_env n_steps) (batch_to_seq 0 (map (fun b : bool => if b then 1 else 0) dones) n_env n_steps)
    (map (fun s => (slice (n_hidden p) 0 s, slice (n_hidden p) 1 s)) states) ltac:(rewrite !b2s_length; reflexivity)) as (K1 & K2 & _).
  rewrite s2b_length, K2, b2s_length, map_length, K1, b2s_length. split; [reflexivity|].
  apply mem_length; [rewrite map_length; exact Ls|apply b2s_rows|apply b2s_rows].
Qed.
Lemma forward_some : forall {O} (features : O -> row) p n_env n_steps obs dones states,
  (exists r, forward features p n_env n_steps obs dones states = Some r) <->
  length obs = (n_env * n_steps)%nat /\ length dones = (n_env * n_steps)%nat /\ length states = n_env /\
  Forall (fun s => length s = (n_hidden p + n_hidden p)%nat) states.
Proof.
  intros O features p n_env n_steps obs dones states. split.
  - intros ((out & new) & H). apply forward_inv in H. tauto.
  - intros (H1 & H2 & H3 & H4). unfold forward. rewrite H1, H2, H3, !Nat.eqb_refl. cbn [andb].
    replace (forallb _ states) with true; [eauto|]. symmetry. apply forallb_forall. intros s Hs.
    rewrite Forall_forall in H4. apply Nat.eqb_eq. apply H4. exact Hs.
Qed.

(** ** Episodes *)
Lemma recurrence_episode : forall p X1 X2 B1 B2 s1 s2 t1 t2 K,
  B1 t1 = true -> B2 t2 = true ->
  (forall k, (k <= K)%nat -> X1 (t1 + k)%nat = X2 (t2 + k)%nat /\ B1 (t1 + k)%nat = B2 (t2 + k)%nat) ->
  recurrence p X1 B1 s1 (S (t1 + K)) = recurrence p X2 B2 s2 (S (t2 + K)).
Proof.
  intros p X1 X2 B1 B2 s1 s2 t1 t2 K H1 H2. induction K as [|K IH]; intros H.
  - destruct (H 0%nat (le_n _)) as (E1 & E2). replace (t1 + 0)%nat with t1 in * by lia. replace (t2 + 0)%nat with t2 in * by lia.
    cbn [recurrence]. rewrite E1, H1, H2. reflexivity.
  - destruct (H (S K) (le_n _)) as (E1 & E2). replace (t1 + S K)%nat with (S (t1 + K)) in * by lia.
    replace (t2 + S K)%nat with (S (t2 + K)) in * by lia.
    change (textbook p (X1 (S (t1 + K))) (B1 (S (t1 + K))) (recurrence p X1 B1 s1 (S (t1 + K))) =
            textbook p (X2 (S (t2 + K))) (B2 (S (t2 + K))) (recurrence p X2 B2 s2 (S (t2 + K)))).
    rewrite E1, E2, IH; [reflexivity|]. intros k Hk. apply H. lia.
Qed.
Lemma row_ext : forall n (a b : row) f, length a = n -> length b = n -> (forall j, (j < n)%nat -> nth j a 0 = f j) ->
  (forall j, (j < n)%nat -> nth j b 0 = f j) -> a = b.
Proof.
  intros n a b f Ha Hb Fa Fb. apply (nth_ext a b 0 0); [lia|]. intros j Hj. rewrite Fa, Fb by lia. reflexivity.
Qed.
Lemma policy_episode : forall {O} (features : O -> row) p n1 n2 T1 T2 obs1 obs2 dones1 dones2 states1 states2 out1 out2 new1 new2
  e1 e2 o1 o2 b1 b2 s1 s2 t1 t2 K,
  shaped p -> features_fit features p ->
  forward features p n1 T1 obs1 dones1 states1 = Some (out1, new1) -> forward features p n2 T2 obs2 dones2 states2 = Some (out2, new2) ->
  (e1 < n1)%nat -> given T1 e1 obs1 dones1 states1 o1 b1 s1 -> (e2 < n2)%nat -> given T2 e2 obs2 dones2 states2 o2 b2 s2 ->
  (t1 + K < T1)%nat -> (t2 + K < T2)%nat -> b1 t1 = true -> b2 t2 = true ->
  (forall k, (k <= K)%nat -> o1 (t1 + k)%nat = o2 (t2 + k)%nat /\ b1 (t1 + k)%nat = b2 (t2 + k)%nat) ->
  exists h, nth_error out1 (e1 * T1 + (t1 + K)) = Some h /\ nth_error out2 (e2 * T2 + (t2 + K)) = Some h.
Proof.
  intros O features p n1 n2 T1 T2 obs1 obs2 dones1 dones2 states1 states2 out1 out2 new1 new2 e1 e2 o1 o2 b1 b2 s1 s2 t1 t2 K
    Sp Hf F1 F2 He1 G1 He2 G2 Ht1 Ht2 Hb1 Hb2 H.
  destruct (policy_ok features p n1 T1 obs1 dones1 states1 out1 new1 e1 o1 b1 s1 Sp Hf F1 He1 G1) as (P1 & _).
  destruct (policy_ok features p n2 T2 obs2 dones2 states2 out2 new2 e2 o2 b2 s2 Sp Hf F2 He2 G2) as (P2 & _).
  destruct (P1 _ Ht1) as (h1 & E1 & L1 & N1). destruct (P2 _ Ht2) as (h2 & E2 & L2 & N2).
  rewrite (recurrence_episode p _ (fun t i => nth i (features (o2 t)) 0) b1 b2 _ (memory_of p s2) t1 t2 K Hb1 Hb2) in N1.
  - rewrite (row_ext _ h1 h2 _ L1 L2 N1 N2) in E1. eauto.
  - intros k Hk. destruct (H k Hk) as (-> & ->). auto.
Qed.
Lemma recurrence_ext : forall p X1 X2 B1 B2 s t, (forall k, (k < t)%nat -> X1 k = X2 k /\ B1 k = B2 k) ->
  recurrence p X1 B1 s t = recurrence p X2 B2 s t.
Proof.
  intros p X1 X2 B1 B2 s t. induction t as [|t IH]; intros H; [reflexivity|]. cbn [recurrence].
  destruct (H t ltac:(lia)) as (-> & ->). rewrite IH; [reflexivity|]. intros k Hk. apply H. lia.
Qed.
(** Runs with other environments beside it, or other later steps, give the same. *)
Lemma policy_own : forall {O} (features : O -> row) p n1 n2 T1 T2 obs1 obs2 dones1 dones2 states1 states2 out1 out2 new1 new2
  e1 e2 o1 o2 b1 b2 s t,
  shaped p -> features_fit features p ->
  forward features p n1 T1 obs1 dones1 states1 = Some (out1, new1) -> forward features p n2 T2 obs2 dones2 states2 = Some (out2, new2) ->
  (e1 < n1)%nat -> given T1 e1 obs1 dones1 states1 o1 b1 s -> (e2 < n2)%nat -> given T2 e2 obs2 dones2 states2 o2 b2 s ->
  (t < T1)%nat -> (t < T2)%nat -> (forall k, (k <= t)%nat -> o1 k = o2 k /\ b1 k = b2 k) ->
  exists h, nth_error out1 (e1 * T1 + t) = Some h /\ nth_error out2 (e2 * T2 + t) = Some h.
Proof.
  intros O features p n1 n2 T1 T2 obs1 obs2 dones1 dones2 states1 states2 out1 out2 new1 new2 e1 e2 o1 o2 b1 b2 s t
    Sp Hf F1 F2 He1 G1 He2 G2 Ht1 Ht2 H.
  destruct (policy_ok features p n1 T1 obs1 dones1 states1 out1 new1 e1 o1 b1 s Sp Hf F1 He1 G1) as (P1 & _).
  destruct (policy_ok features p n2 T2 obs2 dones2 states2 out2 new2 e2 o2 b2 s Sp Hf F2 He2 G2) as (P2 & _).
  destruct (P1 _ Ht1) as (h1 & E1 & L1 & N1). destruct (P2 _ Ht2) as (h2 & E2 & L2 & N2).
  rewrite (recurrence_ext p _ (fun t i => nth i (features (o2 t)) 0) b1 b2 (memory_of p s) (S t)) in N1.
  - rewrite (row_ext _ h1 h2 _ L1 L2 N1 N2) in E1. eauto.
  - intros k Hk. destruct (H k ltac:(lia)) as (-> & ->). auto.
Qed.

(** ** Bounds *)
Lemma sigmoid_bounds : forall x, 0 < sigmoid x < 1.
Proof.
  intros x. unfold sigmoid. pose proof (exp_pos (- x)). split; [apply Rinv_0_lt_compat; lra|].
  rewrite <- Rinv_1. apply Rinv_lt_contravar; lra.
Qed.
Lemma tanh_bounds : forall x, -1 < tanh x < 1.
Proof.
  intros x. unfold tanh, sinh, cosh. pose proof (exp_pos x). pose proof (exp_pos (- x)).
  replace ((exp x - exp (- x)) / 2 / ((exp x + exp (- x)) / 2)) with ((exp x - exp (- x)) / (exp x + exp (- x))) by (field; lra).
  split.
  - apply (Rmult_lt_reg_r (exp x + exp (- x))); [lra|]. unfold Rdiv. rewrite Rmult_assoc, Rinv_l by lra. lra.
  - apply (Rmult_lt_reg_r (exp x + exp (- x))); [lra|]. unfold Rdiv. rewrite Rmult_assoc, Rinv_l by lra. lra.
Qed.
Lemma hidden_bound : forall p x b s j, Rabs (snd (textbook p x b s) j) < 1.
Proof.
  intros p x b s j. unfold textbook. cbn [snd]. match goal with |- Rabs (sigmoid ?a * tanh ?z) < 1 => pose proof (sigmoid_bounds a); pose proof (tanh_bounds z); generalize dependent (sigmoid a); generalize dependent (tanh z) end.
  intros t Ht g Hg. apply Rabs_def1; nra.
Qed.
Lemma cell_bound : forall p x b s j, Rabs (fst (textbook p x b s) j) <= Rabs (fst s j) + 1.
Proof.
  intros p x b s j. unfold textbook. cbn [fst].
  match goal with |- Rabs (sigmoid ?f * ?c + sigmoid ?i * tanh ?z) <= _ =>
    pose proof (sigmoid_bounds f); pose proof (sigmoid_bounds i); pose proof (tanh_bounds z);
    assert (Rabs c <= Rabs (fst s j)) by (destruct b; [rewrite Rabs_R0; apply Rabs_pos|lra]);
    generalize dependent (sigmoid f); generalize dependent (sigmoid i); generalize dependent (tanh z); generalize dependent c end.
  intros c Hc t Ht i Hi f Hf. eapply Rle_trans; [apply Rabs_triang|]. rewrite !Rabs_mult, (Rabs_right f), (Rabs_right i) by lra.
  pose proof (Rabs_pos c). assert (Rabs t < 1) by (apply Rabs_def1; lra). pose proof (Rabs_pos t). nra.
Qed.
Lemma recurrence_bound : forall p X B s t j, Rabs (fst (recurrence p X B s t) j) <= Rabs (fst s j) + INR t.
Proof.
  intros p X B s t j. induction t as [|t IH]; [cbn; lra|]. rewrite S_INR. cbn [recurrence].
  eapply Rle_trans; [apply cell_bound|]. lra.
Qed.
Lemma given_ex : forall {O} n_env n_steps e (obs : list O) dones states, (e < n_env)%nat -> (0 < n_steps)%nat ->
  length obs = (n_env * n_steps)%nat -> length dones = (n_env * n_steps)%nat -> length states = n_env ->
  exists o b s, given n_steps e obs dones states o b s.
Proof.
  intros O n_env n_steps e obs dones states He Hn Lo Ld Ls.
  destruct (nth_error_ex obs (e * n_steps) ltac:(nia)) as (o0 & _). destruct (nth_error_ex states e ltac:(lia)) as (s & Es).
  exists (fun t => nth (e * n_steps + t) obs o0), (fun t => nth (e * n_steps + t) dones false), s. split; [|exact Es].
  intros t Ht. split; apply nth_error_nth'; rewrite ?Lo, ?Ld; apply mul_lt; assumption.
Qed.
Lemma policy_bounds : forall {O} (features : O -> row) p n_env n_steps obs dones states out new,
  shaped p -> features_fit features p -> forward features p n_env n_steps obs dones states = Some (out, new) ->
  (forall h x, In h out -> In x h -> Rabs x < 1) /\
  (forall e s s' j, nth_error states e = Some s -> nth_error new e = Some s' -> (j < n_hidden p)%nat ->
     Rabs (nth j s' 0) <= Rabs (nth j s 0) + INR n_steps).
Proof.
  intros O features p n_env n_steps obs dones states out new Sp Hf F.
  destruct (policy_counts features p n_env n_steps obs dones states out new F) as (Lout & Lnew).
  destruct (proj1 (forward_some features p n_env n_steps obs dones states) ltac:(eauto)) as (Lo & Ld & Ls & Fs). split.
  - intros h x Hh Hx. apply In_nth_error in Hh. destruct Hh as (i & Hi).
    assert (Hin : (i < n_env * n_steps)%nat) by (rewrite <- Lout; apply nth_error_Some; congruence).
    assert (Hn : (0 < n_steps)%nat) by (destruct n_steps; lia).
    pose proof (Nat.div_mod i n_steps ltac:(lia)) as D. pose proof (Nat.mod_upper_bound i n_steps ltac:(lia)) as U.
    set (e := (i / n_steps)%nat) in *. set (t := (i mod n_steps)%nat) in *.
    assert (He : (e < n_env)%nat) by nia.
    destruct (given_ex n_env n_steps e obs dones states He Hn Lo Ld Ls) as (o & b & s & G).
    destruct (policy_ok features p n_env n_steps obs dones states out new e o b s Sp Hf F He G) as (P & _).
    destruct (P t U) as (h' & E & Lh & Nh). replace (e * n_steps + t)%nat with i in E by lia. rewrite Hi in E. injection E as <-.
    apply (In_nth _ _ 0) in Hx. destruct Hx as (j & Hj & <-). rewrite Nh by lia. apply hidden_bound.
  - intros e s s' j Es En Hj. assert (He : (e < n_env)%nat) by (rewrite <- Ls; apply nth_error_Some; congruence).
    destruct n_steps as [|n'].
    + pose proof F as F0. apply forward_inv in F0. destruct F0 as (_ & _ & _ & _ & F0). cbn zeta in F0. destruct F0 as (_ & F0).
      unfold lstm, batch_to_seq in F0. cbn [seq map loop fst snd] in F0. rewrite map_map in F0. rewrite F0 in En.
      rewrite nth_error_map, Es in En. cbn [option_map fst snd] in En. injection En as <-.
      assert (Lsl : length (slice (n_hidden p) 0 s) = n_hidden p).
      { apply slice_length. rewrite Forall_forall in Fs. rewrite (Fs s (nth_error_In _ _ Es)). lia. }
      rewrite app_nth1 by (rewrite Lsl; exact Hj). rewrite slice_nth by exact Hj. cbn [Nat.mul Nat.add INR]. lra.
    + destruct (given_ex n_env (S n') e obs dones states He ltac:(lia) Lo Ld Ls) as (o & b & s0 & G). pose proof G as (_ & G2).
      rewrite Es in G2. injection G2 as <-.
      destruct (policy_ok features p n_env (S n') obs dones states out new e o b s Sp Hf F He G) as (_ & s1 & E1 & _ & N1).
      rewrite En in E1. injection E1 as <-. destruct (N1 j Hj) as (-> & _). apply recurrence_bound.
Qed.

(** ** Acting and training *)
Definition fits (p : params) (m : memory) : Prop := length (fst m) = n_hidden p /\ length (snd m) = n_hidden p.
Lemma cell_fits : forall p x b s, shaped p -> length x = length (weight_x p) -> fits p s -> fits p (cell p x (mask_of b) s).
Proof.
  intros p x b s Sp Hx (H1 & H2).
  destruct (cell_ok p x b s (fun j => nth j (fst s) 0, fun j => nth j (snd s) 0) (fun i => nth i x 0) Sp Hx) as (A & B & _).
  - split; [exact H1|]. split; [exact H2|]. intros; auto.
  - auto.
  - split; assumption.
Qed.
Lemma step_fits : forall {O} (features : O -> row) p os bs ss, shaped p -> features_fit features p -> Forall (fits p) ss ->
  Forall (fits p) (step_all p (map features os) (map mask_of bs) ss).
Proof.
  intros O features p os bs ss Sp Hf Hs. unfold step_all. apply Forall_forall. intros m Hm. apply in_map_iff in Hm.
  destruct Hm as (((x & k) & s) & <- & Hi). cbn [fst snd].
  pose proof (in_combine_l _ _ _ _ Hi) as Hi1. pose proof (in_combine_r _ _ _ _ Hi) as Hi2.
  pose proof (in_combine_l _ _ _ _ Hi1) as Hx. pose proof (in_combine_r _ _ _ _ Hi1) as Hk.
  apply in_map_iff in Hx. destruct Hx as (o & <- & _). apply in_map_iff in Hk. destruct Hk as (b & <- & _).
  apply cell_fits; [exact Sp|apply Hf|]. rewrite Forall_forall in Hs. apply Hs. exact Hi2.
Qed.
Definition split_state (p : params) (s : row) : memory := (slice (n_hidden p) 0 s, slice (n_hidden p) 1 s).
Lemma split_join : forall p ss, Forall (fits p) ss -> map (split_state p) (map (fun s => fst s ++ snd s) ss) = ss.
Proof.
  intros p ss H. rewrite map_map. rewrite <- (map_id ss) at 2. apply map_ext_in. intros (c & h) Hi.
  rewrite Forall_forall in H. destruct (H _ Hi) as (H1 & H2). cbn [fst snd] in *. unfold split_state, slice. cbn [Nat.mul].
  rewrite Nat.add_0_r. cbn [skipn]. rewrite <- H1 at 1. rewrite firstn_app, firstn_all, Nat.sub_diag. cbn [firstn]. rewrite app_nil_r.
  rewrite <- H1 at 2. rewrite skipn_app, skipn_all, Nat.sub_diag. cbn. rewrite firstn_all2 by lia. reflexivity.
Qed.
Lemma split_fits : forall p states, Forall (fun s => length s = (n_hidden p + n_hidden p)%nat) states -> Forall (fits p) (map (split_state p) states).
Proof.
  intros p states H. apply Forall_map. eapply Forall_impl; [|exact H]. cbn. intros s Hs. split; cbn; apply slice_length; lia.
Qed.
Lemma one_step : forall {A B} (f : A -> B) (d : B) l n, length l = n -> batch_to_seq d (map f l) n 1 = [map f l].
Proof.
  intros A B f d l n H. unfold batch_to_seq. cbn [seq map]. f_equal. apply nth_ext_error; [rewrite !map_length, seq_length; lia|].
  intros e He. rewrite map_length, seq_length in He. rewrite seq_map_nth by exact He. replace (e * 1 + 0)%nat with e by lia.
  symmetry. apply nth_error_nth'. rewrite map_length. lia.
Qed.
Lemma s2b_one : forall {A} (d : A) n l, length l = n -> seq_to_batch d n [l] = l.
Proof.
  intros A d n l H. apply nth_ext_error; [rewrite s2b_length; cbn; lia|]. intros i Hi. rewrite s2b_length in Hi. cbn in Hi.
  pose proof (s2b_nth d n [l] i 0 l ltac:(lia) eq_refl) as E. cbn [length] in E. replace (i * 1 + 0)%nat with i in E by lia.
  rewrite E. symmetry. apply nth_error_nth'. lia.
Qed.
Lemma acting_loop : forall {O} (features : O -> row) p n_env obs dones states hss final,
  shaped p -> features_fit features p -> acting features p n_env obs dones states = Some (hss, final) ->
  length states = n_env -> Forall (fun s => length s = (n_hidden p + n_hidden p)%nat) states ->
  Forall (fun l => length l = n_env) obs /\ Forall (fun l => length l = n_env) dones /\ length obs = length dones /\
  loop p (map (map features) obs) (map (map mask_of) dones) (map (split_state p) states) =
    (hss, snd (loop p (map (map features) obs) (map (map mask_of) dones) (map (split_state p) states))) /\
  final = match obs with [] => states | _ =>
    map (fun s => fst s ++ snd s) (snd (loop p (map (map features) obs) (map (map mask_of) dones) (map (split_state p) states))) end.
Proof.
  intros O features p n_env obs. induction obs as [|o obs IH]; intros [|d dones] states hss final Sp Hf H Ls Fs; cbn [acting] in H; try discriminate.
  - injection H as <- <-. repeat split; auto.
  - destruct (forward features p n_env 1 o d states) as [(hs & states')|] eqn:F; [|discriminate].
    destruct (acting features p n_env obs dones states') as [(hss' & final')|] eqn:A; [|discriminate]. injection H as <- <-.
    destruct (policy_counts features p n_env 1 o d states hs states' F) as (_ & Ln).
    apply forward_inv in F. destruct F as (L1 & L2 & _ & _ & F). cbn zeta in F.
    replace (n_env * 1)%nat with n_env in * by lia.
    change (fun b : bool => if b then 1 else 0) with mask_of in F.
    rewrite !one_step in F by assumption. unfold lstm in F. cbn [loop fst snd] in F. fold (split_state p) in F. destruct F as (E1 & E2).
    change (map (fun s => (slice (n_hidden p) 0 s, slice (n_hidden p) 1 s)) states) with (map (split_state p) states) in E1, E2.
    set (ss' := step_all p (map features o) (map mask_of d) (map (split_state p) states)) in *.
    assert (Fit : Forall (fits p) ss') by (apply step_fits; auto; apply split_fits; exact Fs).
    assert (Lss : length ss' = n_env) by (unfold ss'; rewrite step_all_length, !map_length; lia).
    rewrite s2b_one in E1 by (rewrite map_length; exact Lss).
    assert (Fs' : Forall (fun s => length s = (n_hidden p + n_hidden p)%nat) states').
    { rewrite E2. apply Forall_map. eapply Forall_impl; [|exact Fit]. cbn. intros s (S1 & S2). rewrite app_length. lia. }
    destruct (IH dones states' hss' final' Sp Hf A Ln Fs') as (I1 & I2 & I3 & I4 & I5).
    assert (Esp : map (split_state p) states' = ss') by (rewrite E2; apply split_join; exact Fit). rewrite Esp in I4, I5.
    split; [constructor; assumption|]. split; [constructor; assumption|]. split; [cbn; lia|].
    cbn [map loop fst snd]. fold ss'. rewrite I4. cbn [fst snd]. split; [rewrite E1; reflexivity|].
    rewrite I5. destruct obs as [|o' obs]; [|reflexivity]. destruct dones; [|discriminate]. cbn. rewrite E2. reflexivity.
Qed.
Lemma policy_train : forall {O} (features : O -> row) p n_env (d : O) obs dones states hss final,
  shaped p -> features_fit features p -> obs <> [] -> length states = n_env ->
  Forall (fun s => length s = (n_hidden p + n_hidden p)%nat) states ->
  acting features p n_env obs dones states = Some (hss, final) ->
  forward features p n_env (length obs) (seq_to_batch d n_env obs) (seq_to_batch false n_env dones) states =
    Some (seq_to_batch [] n_env hss, final).
Proof.
  intros O features p n_env d obs dones states hss final Sp Hf Hne Ls Fs H.
  destruct (acting_loop features p n_env obs dones states hss final Sp Hf H Ls Fs) as (F1 & F2 & L & E1 & E2).
  unfold forward. rewrite !s2b_length, <- L, !Nat.eqb_refl, (proj2 (Nat.eqb_eq _ _) Ls).
  replace (forallb _ states) with true.
  2:{ symmetry. apply forallb_forall. intros s Hs. rewrite Forall_forall in Fs. apply Nat.eqb_eq. apply Fs. exact Hs. }
  cbn [andb]. rewrite (b2s_s2b features d [] n_env obs F1).
  change (fun b : bool => if b then 1 else 0) with mask_of.
  pose proof (b2s_s2b mask_of false 0 n_env dones F2) as E3. rewrite <- L in E3. rewrite E3.
  unfold lstm. change (map (fun s => (slice (n_hidden p) 0 s, slice (n_hidden p) 1 s)) states) with (map (split_state p) states).
  rewrite E1. cbn [fst snd]. destruct obs; [congruence|]. rewrite E2. reflexivity.
Qed.

(** ** Layer normalisation *)
Lemma sum_scal : forall n f a, sum_to n (fun i => f i * a) = sum_to n f * a.
Proof. induction n as [|n IH]; intros f a; cbn; [lra|]. rewrite IH. lra. Qed.
Lemma sum_minus : forall n f a, sum_to n (fun i => f i - a) = sum_to n f - INR n * a.
Proof. induction n as [|n IH]; intros f a; [cbn; lra|]. rewrite S_INR. cbn [sum_to]. rewrite IH. lra. Qed.
Lemma sum_sq : forall n f, 0 <= sum_to n (fun i => f i ^ 2).
Proof. induction n as [|n IH]; intros f; cbn [sum_to]; [lra|]. pose proof (pow2_ge_0 (f n)). specialize (IH f). lra. Qed.
Lemma nth_ones : forall w k, (k < w)%nat -> nth k (repeat 1 w) 0 = 1.
Proof. intros w k H. apply nth_error_nth. apply nth_error_repeat. exact H. Qed.
Lemma ln_standard : forall v, v <> [] -> let z := ln_row (repeat 1 (length v)) (repeat 0 (length v)) v in
  length z = length v /\ total z = 0 /\ total (map (fun x => x ^ 2) z) < INR (length v).
Proof.
  intros v Hv z. assert (Lz : length z = length v) by (apply ln_length; apply repeat_length). split; [exact Lz|].
  assert (Hw : 0 < INR (length v)) by (apply lt_0_INR; destruct v; [congruence|cbn; lia]).
  set (w := length v) in *. set (f := fun i => nth i v 0). set (D := sqrt (var_of w f + / 10 ^ 5)).
  assert (Hvar : 0 <= var_of w f).
  { unfold var_of. apply Rmult_le_pos; [apply sum_sq|]. left. apply Rinv_0_lt_compat. exact Hw. }
  assert (He : 0 < / 10 ^ 5) by (apply Rinv_0_lt_compat; lra).
  assert (HD : 0 < D) by (apply sqrt_lt_R0; lra).
  assert (HD2 : D * D = var_of w f + / 10 ^ 5) by (apply sqrt_sqrt; lra).
  assert (Hz : forall k, (k < w)%nat -> nth k z 0 = (f k - mean_of w f) * / D).
  { intros k Hk. unfold z. rewrite ln_nth by (rewrite ?repeat_length; auto). unfold normalised. fold w f D.
    rewrite nth_ones by exact Hk. change (repeat 0 w) with (zeros w). rewrite nth_zeros. unfold Rdiv. change (nth k v 0) with (f k). ring. }
  split.
  - rewrite total_sum, Lz. rewrite (sum_ext w _ (fun k => (f k - mean_of w f) * / D) Hz). rewrite sum_scal, sum_minus.
    unfold mean_of. field. lra.
  - rewrite total_sum, map_length, Lz.
    rewrite (sum_ext w _ (fun k => ((f k - mean_of w f) ^ 2) * (/ D * / D))).
    2:{ intros k Hk. rewrite (nth_map0 (fun x => x ^ 2)) by lia. rewrite Hz by exact Hk. ring. }
    rewrite sum_scal. set (S := sum_to w (fun k => (f k - mean_of w f) ^ 2)).
    assert (ES : S = var_of w f * INR w) by (unfold var_of; fold S; field; lra).
    rewrite ES. rewrite <- Rinv_mult. rewrite HD2.
    apply (Rmult_lt_reg_r (var_of w f + / 10 ^ 5)); [lra|]. rewrite Rmult_assoc, Rinv_l by lra. nra.
Qed.
Lemma ln_constant : forall a w gain bias, length gain = w -> length bias = w -> ln_row gain bias (repeat a w) = bias.
Proof.
  intros a w gain bias Hg Hb. assert (L : length (repeat a w) = w) by apply repeat_length.
  apply (nth_ext _ _ 0 0); [rewrite ln_length; lia|]. intros k Hk. rewrite ln_length in Hk by lia. rewrite L in Hk.
  rewrite ln_nth by (rewrite ?L; lia). rewrite L. unfold normalised.
  assert (Hn : forall i, (i < w)%nat -> nth i (repeat a w) 0 = a) by (intros i Hi; apply nth_error_nth; apply nth_error_repeat; exact Hi).
  assert (Hm : mean_of w (fun i => nth i (repeat a w) 0) = a).
  { unfold mean_of. rewrite (sum_ext w _ (fun i => 0 - - a)) by (intros i Hi; rewrite Hn by exact Hi; ring). rewrite (sum_minus w (fun _ => 0) (- a)).
    rewrite (sum_ext w (fun _ => 0) (fun i => 0 * 0)) by (intros; ring). rewrite sum_scal. assert (0 < INR w) by (apply lt_0_INR; lia). field. lra. }
  rewrite Hm, Hn by exact Hk. unfold Rdiv. ring.
Qed.

(** ** A new episode without the flag *)
Definition small : params := Params 1 [[0; 0; 0; 1]] [[0; 0; 0; 0]] [0; 0; 0; 0] None.
Lemma small_shaped : shaped small.
Proof. unfold shaped, small. cbn. repeat split; repeat constructor. Qed.
Lemma small_features : features_fit (fun o : R => [o]) small.
Proof. intros o. reflexivity. Qed.
Lemma sigmoid_0 : sigmoid 0 = / 2.
Proof. unfold sigmoid. rewrite Ropp_0, exp_0. f_equal. Qed.
Lemma tanh_pos : forall x, 0 < x -> 0 < tanh x.
Proof.
  intros x H. unfold tanh, sinh, cosh. pose proof (exp_pos x). pose proof (exp_pos (- x)).
  assert (exp (- x) < exp x) by (apply exp_increasing; lra).
  apply Rmult_lt_0_compat; [lra|]. apply Rinv_0_lt_compat. lra.
Qed.
Lemma tanh_0 : tanh 0 = 0.
Proof. unfold tanh. rewrite sinh_0. unfold Rdiv. apply Rmult_0_l. Qed.
Lemma small_out : forall c, exists new, forward (fun o : R => [o]) small 1 1 [0] [false] [[c; 0]] = Some ([[/ 2 * tanh (c / 2)]], new).
Proof.
  intros c. unfold forward. cbn -[tanh sigmoid Rmult Rplus]. eexists. f_equal. f_equal. cbn -[tanh].
  assert (E : forall a b d e : R, 0 + 0 * a + (0 + b * (1 - 0) * 0) + 0 = 0) by (intros; ring).
  unfold seq_to_batch. cbn -[tanh sigmoid]. f_equal. f_equal.
  match goal with |- sigmoid ?u * tanh (sigmoid ?v * ?w + sigmoid ?x * tanh ?y) = _ =>
    replace u with 0 by ring; replace v with 0 by ring; replace x with 0 by ring; replace y with 0 by ring end.
  rewrite sigmoid_0, tanh_0. f_equal. f_equal. field.
Qed.
Lemma mask_needed : exists p (features : R -> row) obs s1 s2 out1 out2 new1 new2, shaped p /\ features_fit features p /\
  forward features p 1 1 obs [false] [s1] = Some (out1, new1) /\ forward features p 1 1 obs [false] [s2] = Some (out2, new2) /\ out1 <> out2.
Proof.
  destruct (small_out 0) as (n1 & E1). destruct (small_out 1) as (n2 & E2).
  exists small, (fun o => [o]), [0], [0; 0], [1; 0], [[/ 2 * tanh (0 / 2)]], [[/ 2 * tanh (1 / 2)]], n1, n2.
  split; [apply small_shaped|]. split; [apply small_features|]. split; [exact E1|]. split; [exact E2|].
  intros H. injection H as H. pose proof (tanh_pos (1 / 2) ltac:(lra)). replace (0 / 2) with 0 in H by lra. rewrite tanh_0 in H. lra.
Qed.
(** The initial state: zeros, and accepted. *)
Lemma initial_accepted : forall {O} (features : O -> row) p n_env n_steps obs dones, length obs = (n_env * n_steps)%nat -> length dones = (n_env * n_steps)%nat ->
  (exists r, forward features p n_env n_steps obs dones (initial_state p n_env) = Some r) /\ Forall (Forall (fun x => x = 0)) (initial_state p n_env).
Proof.
  intros O features p n_env n_steps obs dones H1 H2. split.
  - apply forward_some. split; [exact H1|]. split; [exact H2|]. unfold initial_state. split; [apply repeat_length|].
    apply Forall_forall. intros s Hs. apply repeat_spec in Hs. subst. apply repeat_length.
  - unfold initial_state. apply Forall_forall. intros s Hs. apply repeat_spec in Hs. subst. apply Forall_forall. intros x Hx. now apply repeat_spec in Hx.
Qed.
