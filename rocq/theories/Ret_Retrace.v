From Coq Require Import List Arith ZArith QArith Lia Lqa Bool.
From Verif Require Import Base BaseFacts Opt_Model Opt_Facts Opt_Facts2 Ret_Model Ret_Spec Ret_Proofs Ret_Disc.
Import ListNotations.
Open Scope nat_scope.

(** * Batch layout *)
Lemma b2s_total {A} (d : A) batch e n : length batch = e * n -> exists sq, batch_to_seq d batch e n = Some sq.
Proof. intros L. unfold batch_to_seq. rewrite L, Nat.eqb_refl. eauto. Qed.
Lemma b2s_layout {A} (d : A) batch ne n sq : batch_to_seq d batch ne n = Some sq -> length batch = ne * n /\ rect n ne sq /\
  forall t e, t < n -> e < ne -> entry d sq t e = nth (e * n + t) batch d.
Proof.
  unfold batch_to_seq. intros H. destruct (length batch =? ne * n) eqn:E; [|discriminate]. inversion H; subst; clear H. apply Nat.eqb_eq in E. split; auto. split.
  - split; [rewrite map_length, seq_length; auto|]. apply Forall_forall. intros r Hr. apply in_map_iff in Hr. destruct Hr as (t & <- & _). rewrite map_length, seq_length. auto.
  - intros t e Ht He. unfold entry. rewrite nth_map_seq' by auto. rewrite nth_map_seq' by auto. reflexivity.
Qed.
Lemma s2b_swap {A} (d : A) sq n ne : 0 < n -> rect n ne sq -> seq_to_batch d sq = swap_and_flatten d ne sq.
Proof.
  intros N [L F]. unfold seq_to_batch, swap_and_flatten, swap_axes. destruct sq as [|v sq]; [simpl in L; lia|]. inversion F; subst. reflexivity.
Qed.
Lemma s2b_layout {A} (d : A) sq n ne : 0 < n -> rect n ne sq -> length (seq_to_batch d sq) = ne * n /\
  forall t e, t < n -> e < ne -> nth (e * n + t) (seq_to_batch d sq) d = entry d sq t e.
Proof. intros N R. rewrite (s2b_swap d sq n ne N R). apply flatten_layout. auto. Qed.
Lemma nth_ext_all {A} (d : A) (l l' : list A) : length l = length l' -> (forall i, i < length l -> nth i l d = nth i l' d) -> l = l'.
Proof. intros. apply (nth_ext l l' d d); auto. Qed.
Theorem batch_round_trip {A} (d : A) batch ne n sq : 0 < n -> batch_to_seq d batch ne n = Some sq -> seq_to_batch d sq = batch.
Proof.
  intros N H. destruct (b2s_layout d batch ne n sq H) as (L & R & E). destruct (s2b_layout d sq n ne N R) as (L2 & E2).
  apply (nth_ext_all d); [congruence|]. intros i Hi. rewrite L2 in Hi.
  assert (Hm : i mod n < n) by (apply Nat.mod_upper_bound; lia). assert (Hd : i / n < ne) by (apply Nat.div_lt_upper_bound; nia).
  rewrite (Nat.div_mod i n) by lia. rewrite (Nat.mul_comm n). rewrite E2, E by auto. reflexivity.
Qed.
Theorem seq_round_trip {A} (d : A) sq n ne : 0 < n -> rect n ne sq -> batch_to_seq d (seq_to_batch d sq) ne n = Some sq.
Proof.
  intros N R. destruct (s2b_layout d sq n ne N R) as (L & E). destruct (b2s_total d (seq_to_batch d sq) ne n L) as (sq' & E'). rewrite E'. f_equal.
  destruct (b2s_layout d _ _ _ _ E') as (_ & R' & X). destruct R as [L1 F1]. destruct R' as [L2 F2].
  apply (nth_ext_all []); [congruence|]. intros t Ht. rewrite Forall_forall in F1, F2. apply (nth_ext_all d).
  - rewrite (F1 (nth t sq [])), (F2 (nth t sq' [])) by (apply nth_In; lia). reflexivity.
  - intros e He. rewrite F2 in He by (apply nth_In; lia). specialize (X t e ltac:(lia) He). unfold entry in X. rewrite X. rewrite E by lia. reflexivity.
Qed.
Theorem strip_layout {A} (d : A) var ne n : 0 < n -> length var = ne * (n + 1) -> exists out, strip d var ne n = Some out /\ length out = ne * n /\
  forall t e, t < n -> e < ne -> nth (e * n + t) out d = nth (e * (n + 1) + t) var d.
Proof.
  intros N L. unfold strip. destruct (b2s_total d var ne (n + 1) L) as (sq & E). rewrite E. cbn [bind]. eexists. split; [reflexivity|].
  destruct (b2s_layout d _ _ _ _ E) as (_ & [L1 F1] & X).
  assert (R : rect n ne (removelast sq)).
  { split; [rewrite removelast_len; lia|]. destruct sq as [|v sq] using rev_ind; [constructor|]. rewrite removelast_last. apply Forall_app in F1. tauto. }
  destruct (s2b_layout d _ n ne N R) as (L2 & E2). split; auto. intros t e Ht He. rewrite E2 by auto. unfold entry. rewrite nth_removelast by lia. apply X; lia.
Qed.

(** * Q-retrace *)
Section Retrace.
Context (gamma : Q) (ne n : nat) (rewards q_i values rho_i : list Q) (dones : list bool).
Hypothesis N : 0 < n.
Hypothesis L1 : length rewards = ne * n.
Hypothesis L2 : length dones = ne * n.
Hypothesis L3 : length q_i = ne * n.
Hypothesis L4 : length rho_i = ne * n.
Hypothesis L5 : length values = ne * (n + 1).


Theorem retrace_exact : exists l, q_retrace rewards dones q_i values rho_i ne n gamma = Some l /\ length l = ne * n /\
  forall t e, t < n -> e < ne -> exists h, horizon n (at_batch false n dones e) t h /\
    (at_batch 0 n l e t - at_batch 0 n q_i e t ==
     retrace_sum gamma (fun s => qmin2 1 (at_batch 0 n rho_i e s))
       (fun s => at_batch 0 n rewards e s + gamma * (if at_batch false n dones e s then 0 else at_batch 0 (n + 1) values e (S s)) - at_batch 0 n q_i e s)
       t (h - t))%Q.
Proof.
  unfold q_retrace.
  assert (L4' : length (map (qmin2 1) rho_i) = ne * n) by (rewrite map_length; auto).
  destruct (b2s_total 0%Q _ ne n L4') as (rho & E1). rewrite E1. cbn [bind]. destruct (b2s_total 0%Q _ ne n L1) as (rw & E2). rewrite E2. cbn [bind].
  destruct (b2s_total false _ ne n L2) as (dn & E3). rewrite E3. cbn [bind]. destruct (b2s_total 0%Q _ ne n L3) as (qs & E4). rewrite E4. cbn [bind].
  destruct (b2s_total 0%Q _ ne (n + 1) L5) as (vs & E5). rewrite E5. cbn [bind].
  destruct (b2s_layout _ _ _ _ _ E1) as (_ & R1 & X1). destruct (b2s_layout _ _ _ _ _ E2) as (_ & R2 & X2). destruct (b2s_layout _ _ _ _ _ E3) as (_ & R3 & X3).
  destruct (b2s_layout _ _ _ _ _ E4) as (_ & R4 & X4). destruct (b2s_layout _ _ _ _ _ E5) as (_ & R5 & X5).
  set (F := fun i (c : list Q) => map2 Qplus (nth i rw []) (map2 Qmult (map (Qmult gamma) c) (map (fun d => 1 - b2q d)%Q (nth i dn [])))).
  set (G := fun i (c qret : list Q) => map2 Qplus (map2 Qmult (nth i rho []) (map2 Qminus qret (nth i qs []))) (nth i vs [])).
  destruct (back_spec F G n [] (nth n vs [])) as (c & rows & E & L & Cn & R). unfold F, G in E. cbv zeta in E |- *. rewrite E. cbn [fst]. rewrite app_nil_r.
  assert (FL : forall i c0, i < n -> length c0 = ne -> length (F i c0) = ne).
  { intros i c0 Hi Hc. unfold F. repeat rewrite ?map2_len, ?map_length. rewrite (rect_row n ne rw i R2 Hi), (rect_row n ne dn i R3 Hi). lia. }
  assert (LC : forall d t, t + d = n -> length (c t) = ne).
  { induction d as [|d IH]; intros t Ht.
    - replace t with n by lia. rewrite Cn. eapply rect_row; eauto. lia.
    - destruct (R t) as [_ ->]; [lia|]. unfold G. repeat rewrite ?map2_len, ?map_length. rewrite FL by (try lia; apply IH; lia).
      rewrite (rect_row n ne rho t R1), (rect_row n ne qs t R4), (rect_row (n + 1) ne vs t R5) by lia. lia. }
  assert (NR : forall t, t < n -> nth t rows [] = F t (c (S t))).
  { intros t Ht. destruct (R t Ht) as [A _]. exact (nth_error_nth _ _ [] A). }
  assert (RR : rect n ne rows).
  { split; auto. apply Forall_forall. intros r Hr. apply (In_nth _ _ []) in Hr. destruct Hr as (t & Ht & <-). rewrite NR by lia. apply FL; [lia|]. apply (LC (n - S t)). lia. }
  destruct (s2b_layout 0%Q rows n ne N RR) as (LL & XX). eexists. split; [reflexivity|]. split; auto. intros t e Ht He.
  set (ends := at_batch false n dones e). set (V := at_batch 0%Q (n + 1) values e). set (q := at_batch 0%Q n q_i e). set (r := at_batch 0%Q n rewards e).
  set (w := fun s => qmin2 1 (at_batch 0%Q n rho_i e s)).
  destruct (horizon_exists n ends t Ht) as (h & H). exists h. split; auto.
  (* the elements *)
  assert (FE : forall s, s < n -> (nth e (F s (c (S s))) 0 == r s + gamma * (if ends s then 0 else nth e (c (S s)) 0))%Q).
  { intros s Hs. unfold F. assert (LCs : length (c (S s)) = ne) by (apply (LC (n - S s)); lia).
    rewrite !(nth_map2 _ 0%Q 0%Q 0%Q) by (repeat rewrite ?map2_len, ?map_length; rewrite ?(rect_row n ne rw s R2), ?(rect_row n ne dn s R3) by lia; lia).
    rewrite (nth_map' (Qmult gamma) 0%Q 0%Q) by lia. rewrite (nth_map' _ 0%Q false) by (rewrite (rect_row n ne dn s R3); lia).
    pose proof (X2 s e Hs He) as Y2. pose proof (X3 s e Hs He) as Y3. unfold entry in Y2, Y3. rewrite Y2, Y3. unfold r, ends, at_batch.
    destruct (nth (e * n + s) dones false); simpl; ring. }
  assert (CE : forall s, s < n -> (nth e (c s) 0 == w s * (nth e (F s (c (S s))) 0 - q s) + V s)%Q).
  { intros s Hs. destruct (R s Hs) as [_ ->]. unfold G. assert (LFs : length (F s (c (S s))) = ne) by (apply FL; auto; apply (LC (n - S s)); lia).
    rewrite !(nth_map2 _ 0%Q 0%Q 0%Q) by (repeat rewrite ?map2_len, ?map_length; rewrite ?LFs, ?(rect_row n ne rho s R1), ?(rect_row n ne qs s R4), ?(rect_row (n + 1) ne vs s R5) by lia; lia).
    pose proof (X1 s e Hs He) as Y1. pose proof (X4 s e Hs He) as Y4. pose proof (X5 s e ltac:(lia) He) as Y5. unfold entry in Y1, Y4, Y5. rewrite Y1, Y4, Y5.
    rewrite (nth_map' (qmin2 1) 0%Q 0%Q) by nia. reflexivity. }
  assert (CN : nth e (c n) 0%Q = V n).
  { rewrite Cn. pose proof (X5 n e ltac:(lia) He) as Y5. unfold entry in Y5. rewrite Y5. reflexivity. }
  set (y := fun s => if s <? n then (nth e (F s (c (S s))) 0 - q s)%Q else 0%Q).
  set (dl := fun s => (r s + gamma * (if ends s then 0 else V (S s)) - q s)%Q).
  assert (YR : forall s, s < n -> (y s == dl s + gamma * w (S s) * (if ends s then 0 else y (S s)))%Q).
  { intros s Hs. unfold y at 1. replace (s <? n) with true by (symmetry; apply Nat.ltb_lt; auto). rewrite FE by auto. unfold dl. destruct (ends s); [ring|].
    unfold y. destruct (S s <? n) eqn:Es.
    - apply Nat.ltb_lt in Es. rewrite (CE (S s) Es). ring.
    - apply Nat.ltb_ge in Es. replace (S s) with n by lia. rewrite CN. ring. }
  pose proof (cut_sum n (fun s => gamma * w (S s))%Q dl y ends YR (h - t) t h ltac:(destruct H; lia) H) as CS.
  assert (YN : y n = 0%Q) by (unfold y; rewrite Nat.ltb_irrefl; reflexivity).
  transitivity (y t).
  - unfold y. replace (t <? n) with true by (symmetry; apply Nat.ltb_lt; auto). unfold at_batch at 1. rewrite XX by auto. unfold entry. rewrite NR by auto. reflexivity.
  - rewrite CS, YN. unfold wsum, retrace_sum. transitivity (sum_to (fun i : nat => trace (fun s : nat => (gamma * w (S s))%Q) t i * dl (t + i)%nat)%Q (h - t)).
    + destruct (ends h); ring.
    + apply sum_to_ext. intros i _. rewrite trace_retrace. reflexivity.
Qed.
End Retrace.

(** * Logged episode rewards *)
Lemma set_positions_cons m ms : set_positions (m :: ms) = (if m then [0] else []) ++ map S (set_positions ms).
Proof.
  unfold set_positions. cbn [length seq filter nth]. rewrite <- seq_shift.
  assert (X : forall l, filter (fun i => match i with 0 => m | S m0 => nth m0 ms false end) (map S l) = map S (filter (fun i => nth i ms false) l)).
  { induction l as [|i l IH]; simpl; auto. destruct (nth i ms false); simpl; rewrite IH; auto. }
  rewrite X. destruct m; reflexivity.
Qed.
Lemma log_rest_shift r rs : forall l p, log_rest (r :: rs) (S p) (map S l) = map (fun x => (fst x, S (snd x))) (log_rest rs p l).
Proof. induction l as [|i l IH]; intros p; simpl; auto. rewrite IH. reflexivity. Qed.
Lemma last_map_S : forall l i d, last (map S (i :: l)) d = S (last (i :: l) 0).
Proof. induction l as [|j l IH]; intros i d; [reflexivity|]. change (last (map S (i :: j :: l)) d) with (last (map S (j :: l)) d). rewrite IH. reflexivity. Qed.

Lemma totals_compat l : forall a b, (a == b)%Q -> qeq_pair (episode_totals a l) (episode_totals b l).
Proof.
  induction l as [|[r [|]] l IH]; intros a b H; cbn [episode_totals].
  - split; simpl; auto.
  - specialize (IH r r (Qeq_refl r)). destruct (episode_totals r l). destruct IH. split; simpl; auto.
  - apply IH. rewrite H. reflexivity.
Qed.
Lemma qeq_pair_trans a b c : qeq_pair a b -> qeq_pair b c -> qeq_pair a c.
Proof.
  intros [H1 H2] [H3 H4]. split; [|rewrite H2; auto]. clear H2 H4. revert H3. generalize (fst c). induction H1; intros l3 H3; inversion H3; subst; constructor; auto.
  rewrite H. auto.
Qed.
Lemma logger_exact : forall rw mk acc, length rw = length mk ->
  qeq_pair (map fst (snd (reward_logger acc rw mk)), fst (reward_logger acc rw mk)) (episode_totals acc (combine rw mk)).
Proof.
  induction rw as [|r rw IH]; intros [|m mk] acc L; simpl in L; try discriminate.
  - unfold reward_logger. simpl. split; simpl; [constructor|ring].
  - cbn [combine]. unfold reward_logger. rewrite set_positions_cons. destruct m.
    + cbn [app]. cbn [episode_totals]. specialize (IH mk r ltac:(congruence)). destruct (episode_totals r (combine rw mk)) as [ts a]. unfold reward_logger in IH.
      destruct (set_positions mk) as [|i l].
      * cbn [map last log_rest fst snd firstn skipn]. destruct IH as [I1 I2]. cbn [fst snd map] in I1, I2. split; cbn [fst snd].
        -- constructor; auto. simpl. ring.
        -- rewrite <- I2. simpl. reflexivity.
      * change (0 :: map S (i :: l)) with ([0] ++ map S (i :: l)). cbn [app]. change (last (0 :: map S (i :: l)) 0) with (last (map S (i :: l)) 0). rewrite last_map_S.
        cbn [map log_rest fst snd firstn skipn]. rewrite log_rest_shift, map_map. cbn [fst]. destruct IH as [I1 I2]. cbn [fst snd map] in I1, I2. split; cbn [fst snd].
        -- inversion I1; subst. constructor; [simpl; ring|]. constructor; auto.
        -- exact I2.
    + cbn [app episode_totals]. specialize (IH mk (acc + r)%Q ltac:(congruence)). unfold reward_logger in IH. destruct (set_positions mk) as [|i l].
      * cbn [map fst snd] in *. destruct IH as [I1 I2]. cbn [fst snd] in *. split; cbn [fst snd]; auto. rewrite <- I2. simpl. ring.
      * change (map S (i :: l)) with (S i :: map S l). cbv iota beta. change (last (S i :: map S l) 0) with (last (map S (i :: l)) 0). rewrite last_map_S.
        cbn [fst snd map log_rest] in *. rewrite log_rest_shift, map_map. cbn [fst]. destruct IH as [I1 I2]. cbn [fst snd] in *. split; cbn [fst snd]; auto.
        inversion I1; subst. constructor; auto. rewrite <- H2. simpl. ring.
Qed.
Lemma totals_app : forall a b acc, episode_totals acc (a ++ b) = let '(ts, c) := episode_totals acc a in let '(ts', c') := episode_totals c b in (ts ++ ts', c').
Proof.
  induction a as [|[r [|]] a IH]; intros b acc; cbn [app episode_totals].
  - destruct (episode_totals acc b). reflexivity.
  - rewrite IH. destruct (episode_totals r a) as [ts c]. destruct (episode_totals c b). reflexivity.
  - apply IH.
Qed.
Theorem logger_segments : forall segs acc, Forall (fun s => length (fst s) = length (snd s)) segs ->
  qeq_pair (snd (logger_run acc segs), fst (logger_run acc segs)) (episode_totals acc (concat (map (fun s => combine (fst s) (snd s)) segs))).
Proof.
  induction segs as [|[rw mk] segs IH]; intros acc F; cbn [logger_run map concat].
  - split; simpl; [constructor|reflexivity].
  - inversion F as [|? ? L F']; subst. cbn [fst snd] in *. pose proof (logger_exact rw mk acc L) as X. rewrite totals_app.
    destruct (reward_logger acc rw mk) as [a1 o1]. destruct (episode_totals acc (combine rw mk)) as [ts c]. cbn [fst snd] in X.
    specialize (IH a1 F'). destruct (logger_run a1 segs) as [a2 o2]. cbn [fst snd] in *. destruct X as [X1 X2]. cbn [fst snd] in *.
    pose proof (totals_compat (concat (map (fun s => combine (fst s) (snd s)) segs)) a1 c X2) as TC.
    pose proof (qeq_pair_trans _ _ _ IH TC) as [Y1 Y2]. destruct (episode_totals c _) as [ts' c']. cbn [fst snd] in *. split; cbn [fst snd]; auto. apply Forall2_app; auto.
Qed.

(** * Explained variance *)
Lemma qsum_sq_nonneg m l : (0 <= qsum (map (fun x => (x - m) * (x - m)) l))%Q.
Proof.
  induction l as [|x l IH]; simpl; [lra|]. assert (0 <= (x - m) * (x - m))%Q; [|lra].
  destruct (Qlt_le_dec (x - m) 0).
  - setoid_replace ((x - m) * (x - m))%Q with (- (x - m) * - (x - m))%Q by ring. apply Qmult_le_0_compat; lra.
  - apply Qmult_le_0_compat; lra.
Qed.
Lemma zn_pos n : 0 < n -> (0 < inject_Z (Z.of_nat n))%Q.
Proof. intros. change 0%Q with (inject_Z 0). rewrite <- Zlt_Qlt. lia. Qed.
Lemma qvar_nonneg l : (0 <= qvar l)%Q.
Proof.
  unfold qvar, qmean. destruct l as [|a l]; [simpl; unfold Qdiv; simpl; lra|]. rewrite map_length.
  unfold Qdiv. apply Qmult_le_0_compat; [apply qsum_sq_nonneg|]. apply Qlt_le_weak, Qinv_lt_0_compat, zn_pos. simpl. lia.
Qed.
Lemma qsum_const c l : Forall (fun x => x == c)%Q l -> (qsum l == inject_Z (Z.of_nat (length l)) * c)%Q.
Proof.
  induction 1 as [|x l H _ IH]; [simpl; ring|]. cbn [qsum fold_right length]. change (fold_right Qplus 0%Q l) with (qsum l). rewrite H, IH.
  rewrite Nat2Z.inj_succ. unfold Z.succ. rewrite inject_Z_plus. change (inject_Z 1) with 1%Q. ring.
Qed.
Lemma qmean_const c l : l <> [] -> Forall (fun x => x == c)%Q l -> (qmean l == c)%Q.
Proof.
  intros N F. unfold qmean. rewrite (qsum_const c l F). assert (0 < inject_Z (Z.of_nat (length l)))%Q by (apply zn_pos; destruct l; [congruence|simpl; lia]). field. lra.
Qed.
Lemma qvar_const c l : Forall (fun x => x == c)%Q l -> (qvar l == 0)%Q.
Proof.
  intros F. destruct l as [|a l]; [reflexivity|]. unfold qvar. set (m := qmean (a :: l)). assert (M : (m == c)%Q) by (apply qmean_const; [discriminate|auto]).
  apply qmean_const; [discriminate|]. apply Forall_forall. intros y Hy. apply in_map_iff in Hy. destruct Hy as (x & <- & Hx). rewrite Forall_forall in F.
  rewrite (F x Hx), M. ring.
Qed.
Lemma sum_sq_zero m l : (qsum (map (fun x => (x - m) * (x - m)) l) == 0)%Q -> Forall (fun x => x == m)%Q l.
Proof.
  induction l as [|x l IH]; intros H; constructor; cbn [map qsum fold_right] in H; change (fold_right Qplus 0%Q) with qsum in H;
    pose proof (qsum_sq_nonneg m l) as P1; pose proof (qsum_sq_nonneg m [x]) as P2; cbn [map qsum fold_right] in P2.
  - assert (Z : ((x - m) * (x - m) == 0)%Q) by lra. apply Qmult_integral in Z. destruct Z; lra.
  - apply IH. lra.
Qed.
Lemma qvar_zero l : (qvar l == 0)%Q -> exists c, Forall (fun x => x == c)%Q l.
Proof.
  intros H. exists (qmean l). destruct l as [|a l]; [constructor|]. apply sum_sq_zero. unfold qvar, qmean at 1 in H. rewrite map_length in H.
  assert (P : (0 < inject_Z (Z.of_nat (length (a :: l))))%Q) by (apply zn_pos; simpl; lia).
  set (S1 := qsum _) in *. set (n := inject_Z _) in *. assert (E : (S1 == S1 / n * n)%Q) by (field; lra). rewrite E, H. ring.
Qed.

Theorem ev_bounds yp yt v : length yp = length yt -> explained_variance yp yt = Some v ->
  (v <= 1)%Q /\ ((v == 1)%Q <-> exists c, Forall2 (fun p t => t == p + c)%Q yp yt).
Proof.
  intros L H. unfold explained_variance in H. destruct (Qeq_bool (qvar yt) 0) eqn:E; [discriminate|]. inversion H; subst v; clear H.
  assert (NZ : ~ (qvar yt == 0)%Q) by (intros Z; rewrite <- Qeq_bool_iff in Z; congruence).
  assert (P : (0 < qvar yt)%Q) by (pose proof (qvar_nonneg yt); destruct (Qlt_le_dec 0 (qvar yt)); auto; exfalso; apply NZ; lra).
  set (er := map2 Qminus yt yp). pose proof (qvar_nonneg er) as Q0.
  assert (D : (0 <= qvar er / qvar yt)%Q) by (unfold Qdiv; apply Qmult_le_0_compat; auto; apply Qlt_le_weak, Qinv_lt_0_compat; auto).
  split; [lra|]. split.
  - intros V. assert (Z : (qvar er / qvar yt == 0)%Q) by lra. assert (Z2 : (qvar er == 0)%Q).
    { assert (X : (qvar er == qvar er / qvar yt * qvar yt)%Q) by (field; lra). rewrite X, Z. ring. }
    apply qvar_zero in Z2. destruct Z2 as (c & F). exists c. unfold er in F. clear -F L. revert yt L F. induction yp as [|p yp IH]; intros [|t yt] L F; simpl in *; try discriminate; constructor.
    + inversion F; subst. lra.
    + apply IH; [congruence|]. inversion F; auto.
  - intros (c & F). assert (Z : (qvar er == 0)%Q).
    { apply (qvar_const c). unfold er. clear -F. induction F; simpl; constructor; auto. rewrite H. ring. }
    rewrite Z. field. lra.
Qed.
Lemma map2_minus_const_var c : forall yp yt, length yp = length yt -> Forall (fun x => x == c)%Q yp -> (qvar (map2 Qminus yt yp) == qvar yt)%Q.
Proof.
  intros yp yt L F.
  assert (S1 : (qsum (map2 Qminus yt yp) == qsum yt - inject_Z (Z.of_nat (length yt)) * c)%Q).
  { revert yt L. induction F as [|x l H _ IH]; intros [|t yt] L; simpl in L; try discriminate; [simpl; ring|].
    cbn [map2 qsum fold_right]. change (fold_right Qplus 0%Q) with qsum. rewrite IH by congruence. rewrite H. cbn [length]. rewrite Nat2Z.inj_succ. unfold Z.succ. rewrite inject_Z_plus.
    change (inject_Z 1) with 1%Q. ring. }
  assert (LL : length (map2 Qminus yt yp) = length yt) by (rewrite map2_len; lia).
  destruct yt as [|t0 yt0]; [destruct yp; [reflexivity|discriminate]|]. set (yt := t0 :: yt0) in *. assert (P : (0 < inject_Z (Z.of_nat (length yt)))%Q) by (apply zn_pos; unfold yt; simpl; lia).
  assert (M : (qmean (map2 Qminus yt yp) == qmean yt - c)%Q).
  { unfold qmean. rewrite LL, S1. field. lra. }
  unfold qvar. set (m := qmean (map2 Qminus yt yp)) in *. set (m' := qmean yt) in *.
  assert (S2 : (qsum (map (fun x => (x - m) * (x - m)) (map2 Qminus yt yp)) == qsum (map (fun x => (x - m') * (x - m')) yt))%Q).
  { clear S1 LL P. clearbody yt m m'. revert yt L. induction F as [|x l H _ IH]; intros [|t yt] L; simpl in L; try discriminate; [reflexivity|].
    cbn [map2 map qsum fold_right]. change (fold_right Qplus 0%Q) with qsum. rewrite IH by congruence. rewrite H, M. ring. }
  unfold qmean. rewrite !map_length, LL, S2. reflexivity.
Qed.
Theorem ev_constant yp yt v c : length yp = length yt -> Forall (fun x => x == c)%Q yp -> explained_variance yp yt = Some v -> (v == 0)%Q.
Proof.
  intros L F H. unfold explained_variance in H. destruct (Qeq_bool (qvar yt) 0) eqn:E; [discriminate|]. inversion H; subst v.
  assert (NZ : ~ (qvar yt == 0)%Q) by (intros Z; rewrite <- Qeq_bool_iff in Z; congruence).
  rewrite (map2_minus_const_var c yp yt L F). field. auto.
Qed.
Theorem ev_nan yp yt : explained_variance yp yt = None <-> exists c, Forall (fun x => x == c)%Q yt.
Proof.
  unfold explained_variance. destruct (Qeq_bool (qvar yt) 0) eqn:E; split; intros H; try discriminate; auto.
  - apply Qeq_bool_iff in E. apply qvar_zero in E. auto.
  - destruct H as (c & F). apply qvar_const in F. apply Qeq_bool_iff in F. congruence.
Qed.
