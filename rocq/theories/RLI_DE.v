(** Proofs about Differential Evolution in RL-informed mode. *)
From Coq Require Import String List Arith ZArith QArith Bool Permutation Sorting Lia Lqa.
From Verif Require Import Base BaseFacts Space_Model Space_Spec Space_Facts Opt_Model Opt_Spec Opt_Facts Opt_Facts2 DE_Model DE_Proofs RLI_Model RLI_Spec RLI_Learn.
Import ListNotations.
Open Scope nat_scope.

Lemma set_nth_len {A} (l : list A) i a : length (set_nth l i a) = length l.
Proof. revert i. induction l; intros [|i]; simpl; auto. Qed.
Lemma set_nth_get {A} (l : list A) i a j : nth_error (set_nth l i a) j = if (i =? j) && (j <? length l) then Some a else nth_error l j.
Proof.
  revert i j. induction l as [|b l IH]; intros [|i] [|j]; simpl; auto.
  - rewrite andb_false_r. reflexivity.
  - rewrite IH. reflexivity.
Qed.

Lemma assign_len {A} ws : forall l : list A, length (assign l ws) = length l.
Proof. induction ws as [|[i a] ws IH]; intros l; cbn [assign]; auto. rewrite IH. apply set_nth_len. Qed.
Lemma assign_other {A} ws : forall (l : list A) j, ~ In j (map fst ws) -> nth_error (assign l ws) j = nth_error l j.
Proof.
  induction ws as [|[i a] ws IH]; intros l j H; cbn [assign]; auto. cbn [map fst] in H.
  rewrite IH by (intros C; apply H; simpl; auto). rewrite set_nth_get.
  destruct (Nat.eqb_spec i j); [subst; exfalso; apply H; simpl; auto|reflexivity].
Qed.
Lemma assign_hit {A} ws : forall (l : list A) j a, NoDup (map fst ws) -> In (j, a) ws -> j < length l -> nth_error (assign l ws) j = Some a.
Proof.
  induction ws as [|[i b] ws IH]; intros l j a N H L; [destruct H|]. cbn [assign map fst] in *. inversion N; subst.
  destruct H as [H|H].
  - inversion H; subst. rewrite assign_other by auto. rewrite set_nth_get, Nat.eqb_refl. destruct (Nat.ltb_spec j (length l)); [reflexivity|lia].
  - apply IH; auto. rewrite set_nth_len. auto.
Qed.
Lemma assign_Forall {A} (P : A -> Prop) ws : forall l, Forall P l -> Forall P (map snd ws) -> Forall P (assign l ws).
Proof.
  induction ws as [|[i a] ws IH]; intros l F W; cbn [assign]; auto. inversion W; subst. apply IH; auto. apply Forall_set_nth; auto.
Qed.

Lemma map_fst_combine {A B} (l : list A) : forall r : list B, length l = length r -> map fst (combine l r) = l.
Proof. induction l; destruct r; simpl; intros; try discriminate; auto. f_equal. auto. Qed.
Lemma map_snd_combine {A B} (l : list A) : forall r : list B, length l = length r -> map snd (combine l r) = r.
Proof. induction l; destruct r; simpl; intros; try discriminate; auto. f_equal. auto. Qed.

(** The rows drawn. *)
Lemma rows_spec data n draw rows : rl_rows data n draw = Some rows ->
  length rows = n /\ exists ix, NoDup ix /\ length ix = n /\
    Forall2 (fun i x => nth_error data i = Some x) ix rows.
Proof.
  unfold rl_rows. intros H. apply bind_Some in H. destruct H as (ix & Hs & H).
  pose proof (sample_perm _ _ _ Hs) as [L _]. rewrite map_length, seq_length in L.
  pose proof (traverse_spec _ _ _ _ H) as [TL _]. split; [lia|]. exists ix. split.
  - eapply sample_NoDup; [apply seq_NoDup|exact Hs].
  - split; auto. eapply traverse_Forall2; [|exact H]. intros k a b _ E. exact E.
Qed.
Lemma rows_total data n draw : n <= length data -> exists rows, rl_rows data n draw = Some rows.
Proof.
  intros L. unfold rl_rows. destruct (sample_total (map draw (seq 0 n)) (seq 0 (length data))) as (ix & E).
  { rewrite map_length, !seq_length. auto. }
  rewrite E. cbn [bind]. eapply traverse_total with (P := fun i => i < length data).
  - intros k a Ha. destruct (nth_error data a) eqn:X; eauto. apply nth_error_None in X. lia.
  - apply Forall_forall. intros i Hi. apply (sample_incl _ _ _ E) in Hi. apply in_seq in Hi. lia.
Qed.
Lemma rows_few data n draw : length data < n -> rl_rows data n draw = None.
Proof.
  intros L. unfold rl_rows. destruct (sample _ _) as [ix|] eqn:E; auto. exfalso.
  apply sample_perm in E. destruct E as (E & rest & P). apply Permutation_length in P.
  rewrite app_length in P. rewrite map_length, seq_length in E. rewrite seq_length in P. lia.
Qed.

Section DE.
Context (order : list Q -> list nat) (SO : sorts order).
Context (expf : Q -> Q) (m : mode) (fit : list Q -> Q) (p : de_par) (ngen : nat) (data : list (list Q)) (n : nat).
Context (W : wf_dims (de_dims p)) (K : keeps_ints (de_method p) (de_dims p)) (R : respects fit).
Context (DF : Forall (feasible (de_dims p)) data) (NP : n < de_npop p).
Let g := fun x => as_max m (fit x).

Lemma order_facts l : NoDup (order l) /\ length (order l) = length l /\ (forall i, In i (order l) <-> i < length l).
Proof.
  destruct (SO l) as [P _]. split; [|split].
  - eapply Permutation_NoDup; [apply Permutation_sym; exact P|apply seq_NoDup].
  - rewrite (Permutation_length P). apply seq_length.
  - intros i. split; intros H.
    + apply (Permutation_in _ P) in H. apply in_seq in H. lia.
    + apply (Permutation_in _ (Permutation_sym P)). apply in_seq. lia.
Qed.

(** Mixing: which slots change, and to what. *)
Lemma mix_spec draw pop scores pop' : length pop = de_npop p -> length scores = de_npop p ->
  de_mix order data n draw pop scores = Some pop' ->
  length pop' = length pop /\
  exists slots rows, NoDup slots /\ length slots = n /\ NoDup rows /\ length rows = n /\
    (forall i, In i slots -> i < de_npop p) /\
    (forall k s r, nth_error slots k = Some s -> nth_error rows k = Some r ->
       exists x, nth_error data r = Some x /\ nth_error pop' s = Some x) /\
    (forall i, ~ In i slots -> nth_error pop' i = nth_error pop i) /\
    (forall i j a b, In i slots -> ~ In j slots -> nth_error scores i = Some a -> nth_error scores j = Some b -> (a <= b)%Q).
Proof.
  intros LP LS H. unfold de_mix in H. apply bind_Some in H. destruct H as (rows & Hr & H). inversion H; subst pop'. clear H.
  rewrite assign_len. split; auto. destruct (rows_spec _ _ _ _ Hr) as (RL & ix & IN & IL & IR).
  destruct (order_facts scores) as (ON & OL & OI). destruct (SO scores) as [_ OS].
  assert (FL : length (firstn n (order scores)) = n) by (rewrite firstn_length; lia).
  assert (FN : NoDup (firstn n (order scores))). { rewrite <- (firstn_skipn n (order scores)) in ON. eapply NoDup_app_l; eauto. }
  exists (firstn n (order scores)), ix. do 4 (split; [auto|]). split; [|split; [|split]].
  - intros i Hi. apply in_firstn in Hi. apply OI in Hi. lia.
  - intros k s r Hs Hr'. destruct (nth_error rows k) as [x|] eqn:Ex.
    + exists x. split.
      * clear - IR Hr' Ex. revert k Hr' Ex. induction IR; intros [|k] H1 H2; simpl in *; try discriminate; [congruence|eauto].
      * apply assign_hit.
        -- rewrite map_fst_combine by lia. auto.
        -- eapply nth_error_In with (n := k). clear - Hs Ex. revert rows k Hs Ex. induction (firstn n (order scores)) as [|a l IH]; intros [|b rows] [|k] H1 H2; simpl in *; try discriminate; [congruence|eauto].
        -- apply nth_error_In in Hs. apply in_firstn in Hs. apply OI in Hs. lia.
    + apply nth_error_None in Ex. assert (k < length ix) by (apply nth_error_Some; congruence). lia.
  - intros i Hi. apply assign_other. rewrite map_fst_combine by lia. auto.
  - intros i j a b Hi Hj Ha Hb. apply In_nth_error in Hi. destruct Hi as [u Hu].
    assert (Ju : In j (order scores)). { apply OI. apply nth_error_Some. congruence. }
    apply In_nth_error in Ju. destruct Ju as [v Hv].
    assert (u < length (firstn n (order scores))) by (apply nth_error_Some; congruence).
    assert (n <= v). { destruct (Nat.lt_ge_cases v n); auto. exfalso. apply Hj. eapply nth_error_In with (n := v).
      rewrite <- (firstn_skipn n (order scores)) in Hv. rewrite nth_error_app1 in Hv by lia. exact Hv. }
    apply (OS u v i j a b); auto; [lia|]. rewrite <- (firstn_skipn n (order scores)). rewrite nth_error_app1 by lia. exact Hu.
Qed.

Lemma mix_total draw pop scores : n <= length data -> exists pop', de_mix order data n draw pop scores = Some pop'.
Proof. intros L. unfold de_mix. destruct (rows_total data n draw L) as (rows & ->). cbn [bind]. eauto. Qed.

Lemma mix_ok draw pop scores pop' : pop_ok p pop -> length scores = de_npop p -> de_mix order data n draw pop scores = Some pop' -> pop_ok p pop'.
Proof.
  intros [PL PF] LS H. pose proof (mix_spec _ _ _ _ PL LS H) as [L _]. split; [lia|].
  unfold de_mix in H. apply bind_Some in H. destruct H as (rows & Hr & H). inversion H; subst.
  apply assign_Forall; auto. destruct (rows_spec _ _ _ _ Hr) as (RL & ix & IN & IL & IR).
  rewrite map_snd_combine.
  - clear - DF IR. rewrite Forall_forall in DF. induction IR; constructor; auto. apply DF. eapply nth_error_In; eauto.
  - rewrite firstn_length. destruct (order_facts scores) as (_ & OL & _). lia.
Qed.

(** An individual with the best score survives the mixing. *)
Lemma mix_best draw pop pop' z : pop_ok p pop -> de_mix order data n draw pop (map g pop) = Some pop' -> In z pop ->
  exists w, In w pop' /\ In w pop /\ (g z <= g w)%Q.
Proof.
  intros [PL PF] H Hz. assert (LS : length (map g pop) = de_npop p) by (rewrite map_length; auto).
  destruct (mix_spec _ _ _ _ PL LS H) as (L & slots & rows & SN & SL & _ & _ & SB & _ & SK & _).
  destruct (order_facts (map g pop)) as (ON & OL & OI). destruct (SO (map g pop)) as [_ OS].
  (* the last position in the order *)
  assert (exists k, nth_error (order (map g pop)) (de_npop p - 1) = Some k) as (k & Hk).
  { destruct (nth_error (order (map g pop)) (de_npop p - 1)) eqn:E; eauto. apply nth_error_None in E. lia. }
  assert (BEST : forall i a b, nth_error (map g pop) i = Some a -> nth_error (map g pop) k = Some b -> (a <= b)%Q).
  { intros i a b Ha Hb. assert (I : In i (order (map g pop))) by (apply OI; apply nth_error_Some; congruence).
    apply In_nth_error in I. destruct I as [v Hv]. assert (v < length (order (map g pop))) by (apply nth_error_Some; congruence).
    apply (OS v (de_npop p - 1) i k a b); auto. lia. }
  assert (KIN : k < length pop). { assert (In k (order (map g pop))) by (eapply nth_error_In; eauto). apply OI in H0. rewrite map_length in H0. auto. }
  (* slots are the first n positions, so the last one is not among them *)
  unfold de_mix in H. apply bind_Some in H. destruct H as (rw & Hr & H). inversion H; subst pop'. clear H.
  destruct (rows_spec _ _ _ _ Hr) as (RL & _).
  destruct (nth_error pop k) as [w|] eqn:Ew; [|apply nth_error_None in Ew; lia].
  exists w. split; [|split].
  - apply nth_error_In with (n := k). rewrite assign_other; auto.
    rewrite map_fst_combine by (rewrite firstn_length; lia). intros C. apply In_nth_error in C. destruct C as [u Hu].
    assert (u < length (firstn n (order (map g pop)))) by (apply nth_error_Some; congruence). rewrite firstn_length in *.
    assert (Hu' : nth_error (order (map g pop)) u = Some k).
    { rewrite <- (firstn_skipn n (order (map g pop))). rewrite nth_error_app1 by (rewrite firstn_length; lia). exact Hu. }
    assert (u = de_npop p - 1). { apply (proj1 (NoDup_nth_error _) ON); [lia|congruence]. } lia.
  - eapply nth_error_In; eauto.
  - apply In_nth_error in Hz. destruct Hz as [i Hi]. apply (BEST i); rewrite nth_error_map; [rewrite Hi|rewrite Ew]; reflexivity.
Qed.

Lemma rde_gen_inv init drs draw st st' : de_pre m fit p init st -> rde_gen order expf m fit p ngen data n drs draw st = Some st' ->
  de_pre m fit p init st' /\ length (ds_hist st') = S (length (ds_hist st)) /\ ds_best st' <> None /\
  exists st1, de_gen expf m fit p ngen drs st = Some st1 /\ de_inv m fit p init st1 /\
    de_mix order data n draw (ds_pop st1) (ds_scores st1) = Some (ds_pop st') /\
    ds_scores st1 = map g (ds_pop st1) /\ ds_best st' = ds_best st1 /\ ds_scores st' = ds_scores st1 /\ ds_seen st' = ds_seen st1.
Proof.
  intros I H. unfold rde_gen in H. apply bind_Some in H. destruct H as (st1 & E & H). apply bind_Some in H. destruct H as (pop & Em & H).
  inversion H; subst st'. clear H. cbn [ds_pop ds_best ds_hist ds_scores ds_seen].
  destruct (de_gen_pre expf m fit p ngen W K R init drs st st1 I E) as (J & L & B).
  pose proof J as (P & SF & D & Sc & BB). destruct (ds_best st1) as [[x y]|] eqn:EB; [|congruence].
  assert (SL : length (ds_scores st1) = de_npop p) by (rewrite Sc, map_length; apply P).
  split; [|split; [auto|split; [congruence|]]].
  - split; [|split; [exact SF|split]].
    + cbn [ds_pop]. eapply mix_ok; eauto.
    + cbn [ds_pop ds_seen]. intros z Hz. destruct (D z Hz) as (q & Hq & Lq). rewrite Sc in Em.
      destruct (mix_best _ _ _ q P Em Hq) as (w & Hw & _ & Lw). exists w. split; auto. fold (g z) (g q) in Lq. fold (g z) (g w). lra.
    + cbn [ds_best ds_seen ds_hist]. destruct BB as (B1 & B2 & B3 & B4 & B5). auto.
  - exists st1. rewrite EB. repeat split; auto; try (apply J).
Qed.

Lemma rde_gens_inv init drs draw todo : forall gi st st', de_pre m fit p init st ->
  rde_gens order expf m fit p ngen data n drs draw gi todo st = Some st' ->
  de_pre m fit p init st' /\ length (ds_hist st') = todo + length (ds_hist st) /\ (todo <> 0 -> ds_best st' <> None) /\
  (todo <> 0 -> length (ds_scores st') = de_npop p /\
     (match ds_best st' with Some (x, y) => (forall z, In z init -> (g z <= y)%Q) | None => False end)).
Proof.
  induction todo as [|t IH]; intros gi st st' I H; cbn [rde_gens] in H.
  - inversion H; subst. split; [auto|]. split; [reflexivity|]. split; congruence.
  - apply bind_Some in H. destruct H as (st1 & E & H). apply (rde_gen_inv init) in E; auto.
    destruct E as (E1 & E2 & E3 & s0 & E4 & E5 & E6 & E7 & E8 & E9 & E10).
    destruct (IH _ _ _ E1 H) as (J1 & J2 & J3 & J4). split; auto. split; [lia|].
    destruct t as [|t].
    + cbn [rde_gens] in H. inversion H; subst st'. split; [auto|]. intros _. split.
      * rewrite E9, E7, map_length. destruct E5 as ((L & _) & _). auto.
      * rewrite E8 in *. destruct E5 as (_ & _ & _ & _ & E5). destruct (ds_best s0) as [[x y]|]; [|congruence].
        destruct E5 as (_ & _ & E5 & _). exact E5.
    + split; [intros _; apply J3; lia|]. intros _. apply J4. lia.
Qed.

Lemma pre_start init : pop_ok p init -> de_pre m fit p init (DeSt init None [] [] []).
Proof.
  intros P. split; auto. cbn [ds_pop ds_seen ds_best ds_hist]. split; [constructor|]. split; auto.
  intros z Hz. exists z. split; auto. apply Qle_refl.
Qed.

Lemma rde_best drs draw init r : pop_ok p init -> rde_evolute order expf m fit p ngen data n drs draw init = Some r ->
  best_of m fit (dr_seen r) (dr_x r) (dr_y r) /\
  (forall z, In z init -> as_good m (dr_y r) (fit z)) /\
  Forall (feasible (de_dims p)) (dr_seen r) /\
  length (dr_local r) = ngen /\ never_worse m (dr_local r) /\ last (dr_local r) 0%Q = dr_y r /\
  length (dr_pop r) = de_npop p /\ Forall (feasible (de_dims p)) (dr_pop r) /\ length (dr_fits r) = de_npop p.
Proof.
  intros P H. unfold rde_evolute in H. apply bind_Some in H. destruct H as (st & E & H).
  apply (rde_gens_inv init) in E; [|apply pre_start; auto]. destruct E as (((PL & PF) & SF & D & B) & L & _ & X).
  apply bind_Some in H. destruct H as ([x y] & EB & H). inversion H; subst r. clear H.
  cbn [dr_seen dr_x dr_y dr_local dr_fits dr_pop]. cbn [ds_hist length] in L. rewrite Nat.add_0_r in L.
  rewrite EB in B, X. destruct B as (B1 & (h & B4) & B5).
  assert (NZ : ngen <> 0). { intros Z. rewrite Z, B4, app_length in L. simpl in L. lia. }
  destruct (X NZ) as [X1 X2].
  split; [apply max_of_best; auto|]. split.
  { intros z Hz. apply as_max_good. rewrite as_max_invol. apply X2; auto. }
  split; auto. split; [rewrite map_length; auto|]. split; [apply sorted_never_worse; auto|].
  split; [rewrite B4, map_app; cbn [map]; rewrite last_last; reflexivity|].
  split; auto. split; auto. rewrite map_length. auto.
Qed.

Lemma rde_total drs draw init : 4 <= de_npop p -> 1 <= ngen -> n <= length data -> pop_ok p init ->
  exists r, rde_evolute order expf m fit p ngen data n drs draw init = Some r.
Proof.
  intros N G L P. unfold rde_evolute.
  assert (T : forall todo gi st, de_pre m fit p init st -> exists st', rde_gens order expf m fit p ngen data n drs draw gi todo st = Some st').
  { induction todo as [|t IH]; intros gi st I; cbn [rde_gens]; eauto.
    assert (exists st1, rde_gen order expf m fit p ngen data n (drs gi) (draw gi) st = Some st1) as (st1 & E).
    { unfold rde_gen. destruct (de_gen_total expf m fit p ngen W K (drs gi) st N (proj1 I)) as (s0 & ->). cbn [bind].
      destruct (mix_total (draw gi) (ds_pop s0) (ds_scores s0) L) as (pop & ->). cbn [bind]. eauto. }
    rewrite E. cbn [bind]. apply IH. eapply rde_gen_inv; eauto. }
  destruct (T ngen 0 _ (pre_start init P)) as (st & E). rewrite E. cbn [bind].
  apply (rde_gens_inv init) in E; [|apply pre_start; auto]. destruct E as (_ & _ & E & _).
  destruct (ds_best st) as [[x y]|]; [cbn [bind]; eauto|]. exfalso. apply E; [lia|reflexivity].
Qed.

Lemma rde_few drs draw init : 1 <= ngen -> length data < n -> rde_evolute order expf m fit p ngen data n drs draw init = None.
Proof.
  intros G L. unfold rde_evolute. destruct ngen as [|t]; [lia|]. cbn [rde_gens]. unfold rde_gen.
  destruct (de_gen _ _ _ _ _ _ _) as [s|]; cbn [bind]; auto. unfold de_mix. rewrite rows_few by auto. reflexivity.
Qed.

(** One generation in full: greedy step, then the worst slots. *)
Lemma rde_slots drs draw st st' : pop_ok p (ds_pop st) -> rde_gen order expf m fit p ngen data n drs draw st = Some st' ->
  exists st1 slots rows, de_gen expf m fit p ngen drs st = Some st1 /\ ds_best st' = ds_best st1 /\
    NoDup slots /\ length slots = n /\ NoDup rows /\ length rows = n /\
    (forall i, In i slots -> i < de_npop p) /\
    (forall k s r, nth_error slots k = Some s -> nth_error rows k = Some r ->
       exists x, nth_error data r = Some x /\ nth_error (ds_pop st') s = Some x) /\
    (forall i, ~ In i slots -> nth_error (ds_pop st') i = nth_error (ds_pop st1) i) /\
    (forall i j a b, In i slots -> ~ In j slots -> nth_error (ds_pop st1) i = Some a -> nth_error (ds_pop st1) j = Some b ->
       as_good m (fit b) (fit a)) /\
    (forall x y z, ds_best st' = Some (x, y) -> In z (ds_pop st) -> as_good m (as_max m y) (fit z)).
Proof.
  intros P H. unfold rde_gen in H. apply bind_Some in H. destruct H as (st1 & E & H). apply bind_Some in H. destruct H as (pop & Em & H).
  inversion H; subst st'. clear H. cbn [ds_pop ds_best].
  destruct (de_gen_spec expf m fit p ngen W K drs st st1 P E) as (P1 & T & V & x & y & TQ & TL & VL & TF & VF & EP & ESc & EB & M & _ & _).
  assert (SL : length (ds_scores st1) = de_npop p) by (rewrite ESc, map_length; apply P1).
  destruct (mix_spec draw (ds_pop st1) (ds_scores st1) pop (proj1 P1) SL Em) as (_ & slots & rows & S1 & S2 & S3 & S4 & S5 & S6 & S7 & S8).
  exists st1, slots, rows. do 9 (split; [auto|]). split.
  - intros i j a b Hi Hj Ha Hb. apply as_max_good. apply (S8 i j); auto; rewrite ESc, nth_error_map; [rewrite Ha|rewrite Hb]; reflexivity.
  - intros x' y' z HB Hz. rewrite EB in HB. inversion HB; subst x' y'. apply as_max_good. rewrite as_max_invol.
    apply In_nth_error in Hz. destruct Hz as [i Hi].
    destruct (nth_error (ds_pop st1) i) as [w|] eqn:Ew.
    + pose proof (de_slot_greedy expf m fit p ngen W K R drs st st1 i z w P E Hi Ew) as GG. apply as_max_good in GG.
      destruct M as (_ & _ & M). pose proof (M w (nth_error_In _ _ Ew)) as G2. fold (g z) (g w) in GG. cbv beta in G2. fold (g w) in G2. fold (g z). lra.
    + apply nth_error_None in Ew. assert (i < length (ds_pop st)) by (apply nth_error_Some; congruence). destruct P as [P _]. destruct P1 as [P1 _]. lia.
Qed.
End DE.
