(** Proofs about the replay buffer and the statistics of ACER. *)
From Coq Require Import List Arith ZArith QArith Qround Bool Lia.
From Verif Require Import AB_Model AB_Spec.
Import ListNotations.
Open Scope nat_scope.

Section Buffer.
  Context {X : Type}.
  Lemma set_length : forall {Y} k (y : Y) l, k < length l -> length (set k y l) = length l.
  Proof. intros Y k y l H. unfold set. rewrite app_length, firstn_length. cbn [length]. rewrite skipn_length. lia. Qed.
  Lemma set_nth : forall {Y} k (y : Y) l j, k < length l -> nth_error (set k y l) j = if j =? k then Some y else nth_error l j.
  Proof.
    intros Y k y l. revert k. induction l as [|a l IH]; intros [|k] j H; cbn in H; try lia.
    - cbn. destruct j; reflexivity.
    - change (set (S k) y (a :: l)) with (a :: set k y l). destruct j as [|j]; [reflexivity|]. cbn [nth_error Nat.eqb]. now rewrite IH by lia.
  Qed.
  (** The place k holds the latest rollout whose number is k modulo the size. *)
  Definition holds (size : nat) (h : list (list X)) (b : buffer X) : Prop :=
    length (slots b) = size /\ next b = length h mod size /\ num b = Nat.min size (length h) /\
    forall k, k < size -> nth_error (slots b) k = Some (if k <? length h then nth_error h (k + size * ((length h - 1 - k) / size)) else None).
  Lemma holds_init : forall size, 0 < size -> holds size [] (init size).
  Proof.
    intros size H. unfold holds, init. cbn [slots next num length]. split; [apply repeat_length|]. split; [now rewrite Nat.mod_small|]. split; [lia|]. intros k Hk. cbn [Nat.ltb Nat.leb]. revert k Hk. clear H. induction size as [|n IH]; intros k Hk; [lia|]. destruct k; [reflexivity|]. cbn [repeat nth_error]. apply IH. lia.
  Qed.
  Lemma holds_put : forall size h b x, 0 < size -> holds size h b -> exists b', put b x = Some b' /\ holds size (h ++ [x]) b'.
  Proof.
    intros size h b x P (L & Nx & Nm & Sl). unfold put. rewrite L. assert (size =? 0 = false) as -> by (apply Nat.eqb_neq; lia). eexists. split; [reflexivity|].
    assert (Hn : next b < size) by (rewrite Nx; apply Nat.mod_upper_bound; lia). unfold holds. cbn [slots next num]. rewrite app_length. cbn [length]. split; [rewrite set_length; lia|]. split; [rewrite Nx; now rewrite Nat.add_mod_idemp_l by lia|]. split; [rewrite Nm; lia|].
    intros k Hk. rewrite set_nth by lia. set (n := length h) in *. destruct (k =? next b) eqn:E.
    - apply Nat.eqb_eq in E. assert (Hk' : k <= n) by (rewrite E, Nx; apply Nat.mod_le; lia). assert (k <? n + 1 = true) as -> by (apply Nat.ltb_lt; lia).
      assert (D : k + size * ((n + 1 - 1 - k) / size) = n).
      { rewrite Nat.add_sub. pose proof (Nat.div_mod n size ltac:(lia)) as Dm. rewrite <- Nx, <- E in Dm. replace (n - k) with ((n / size) * size) by lia. rewrite Nat.div_mul by lia. lia. }
      rewrite D. rewrite nth_error_app2 by (unfold n; lia). unfold n. now rewrite Nat.sub_diag.
    - apply Nat.eqb_neq in E. rewrite Sl by exact Hk. destruct (k <? n) eqn:K.
      + apply Nat.ltb_lt in K. assert (k <? n + 1 = true) as -> by (apply Nat.ltb_lt; lia). rewrite Nat.add_sub.
        assert (D : (n - k) / size = (n - 1 - k) / size).
        { pose proof (Nat.div_mod (n - 1 - k) size ltac:(lia)) as D1. pose proof (Nat.mod_upper_bound (n - 1 - k) size ltac:(lia)) as U1.
          assert (Ne : (n - 1 - k) mod size <> size - 1).
          { intros Q. apply E. rewrite Nx. assert (Hn' : n = k + ((n - 1 - k) / size + 1) * size) by nia. rewrite Hn'. rewrite Nat.mod_add by lia. now rewrite Nat.mod_small. }
          symmetry. apply (Nat.div_unique _ _ _ ((n - 1 - k) mod size + 1)); lia. }
        rewrite D. rewrite nth_error_app1; [reflexivity|]. fold n. pose proof (Nat.mul_div_le (n - 1 - k) size ltac:(lia)). lia.
      + apply Nat.ltb_ge in K. assert (k <> n) by (intros ->; apply E; rewrite Nx; now rewrite Nat.mod_small by lia). assert (k <? n + 1 = false) as -> by (apply Nat.ltb_ge; lia). reflexivity.
  Qed.
  Lemma holds_puts : forall size l h b, 0 < size -> holds size h b -> exists b', puts b l = Some b' /\ holds size (h ++ l) b'.
  Proof.
    intros size. induction l as [|x l IH]; intros h b P H; cbn [puts]; [exists b; rewrite app_nil_r; tauto|]. destruct (holds_put size h b x P H) as (b1 & E & H1). rewrite E. destruct (IH (h ++ [x]) b1 P H1) as (b2 & E2 & H2). exists b2. rewrite <- app_assoc in H2. tauto.
  Qed.
  Lemma puts_zero : forall x l, puts (@init X 0) (x :: l) = None. Proof. reflexivity. Qed.
  Lemma lastn_nth : forall {Y} n (l : list Y) j, nth_error (lastn n l) j = nth_error l (length l - n + j).
  Proof. intros Y n l j. unfold lastn. generalize (length l - n). intros k. revert l. induction k as [|k IH]; intros l; [reflexivity|]. destruct l as [|a l]; [now destruct j|]. cbn [skipn Nat.add nth_error]. apply IH. Qed.
  Lemma holds_place : forall size h b k, 0 < size -> holds size h b -> k < num b -> exists x, nth_error (slots b) k = Some (Some x) /\ In x (lastn size h).
  Proof.
    intros size h b k P (L & Nx & Nm & Sl) Hk. rewrite Nm in Hk. rewrite Sl by lia. assert (k <? length h = true) as -> by (apply Nat.ltb_lt; lia). set (n := length h) in *.
    set (m := k + size * ((n - 1 - k) / size)). pose proof (Nat.div_mod (n - 1 - k) size ltac:(lia)) as D1. pose proof (Nat.mod_upper_bound (n - 1 - k) size ltac:(lia)) as U1.
    assert (M : m < n /\ n < m + size + 1) by (unfold m; lia). destruct (nth_error h m) as [x|] eqn:E; [|apply nth_error_None in E; unfold n in M; lia]. exists x. split; [reflexivity|].
    apply (nth_error_In _ (m - (n - size))). rewrite lastn_nth. fold n. replace (n - size + (m - (n - size))) with m by lia. exact E.
  Qed.
  Lemma holds_reach : forall size h b j x, 0 < size -> holds size h b -> nth_error (lastn size h) j = Some x -> exists k, k < num b /\ nth_error (slots b) k = Some (Some x).
  Proof.
    intros size h b j x P (L & Nx & Nm & Sl) E. rewrite lastn_nth in E. set (n := length h) in *. set (m := n - size + j) in *. assert (Hm : m < n) by (apply nth_error_Some; congruence).
    pose proof (Nat.div_mod m size ltac:(lia)) as D. pose proof (Nat.mod_upper_bound m size ltac:(lia)) as U. exists (m mod size). assert (Hle : m mod size <= m) by (apply Nat.mod_le; lia). split; [rewrite Nm; lia|]. rewrite Sl by lia. assert (m mod size <? n = true) as -> by (apply Nat.ltb_lt; lia).
    f_equal. rewrite <- E. f_equal. assert (Q : (n - 1 - m mod size) / size = m / size).
    { assert (Hr : n - 1 - m < size) by (unfold m; lia). symmetry. apply (Nat.div_unique _ _ _ (n - 1 - m)); lia. }
    rewrite Q. lia.
  Qed.
  (** Reading. *)
  Lemma rows_sound : forall size h b n_env, 0 < size -> holds size h b -> Forall (fun x => length x = n_env) h -> forall idx i, i + length idx <= n_env -> Forall (fun k => k < num b) idx ->
    exists out, rows b i idx = Some out /\ Forall2 (fun e x => exists ro, In ro (lastn size h) /\ nth_error ro e = Some x) (seq i (length idx)) out.
  Proof.
    intros size h b n_env P H Wf. induction idx as [|k idx IH]; intros i Hi F; [exists []; split; [reflexivity|constructor]|]. apply Forall_cons_iff in F. destruct F as [Hk F]. cbn [length] in Hi. destruct (holds_place size h b k P H Hk) as (ro & E & I).
    assert (Il : In ro h) by (unfold lastn in I; rewrite <- (firstn_skipn (length h - size) h); apply in_or_app; now right). rewrite Forall_forall in Wf. specialize (Wf ro Il). destruct (nth_error ro i) as [x|] eqn:Ex; [|apply nth_error_None in Ex; lia].
    destruct (IH (S i) ltac:(lia) F) as (out & Eo & Fo). exists (x :: out). cbn [rows]. unfold row. rewrite E, Ex, Eo. split; [reflexivity|]. cbn [length seq]. constructor; [now exists ro|exact Fo].
  Qed.
  Lemma rows_reach : forall size h b, 0 < size -> holds size h b -> forall choice i out, Forall2 (fun ex ro => In ro (lastn size h) /\ nth_error ro (fst ex) = Some (snd ex)) (combine (seq i (length out)) out) choice ->
    exists idx, length idx = length out /\ Forall (fun k => k < num b) idx /\ rows b i idx = Some out.
  Proof.
    intros size h b P H choice i out. revert choice i. induction out as [|x out IH]; intros choice i F; [exists []; repeat split; constructor|]. cbn [length seq combine] in F. inversion F as [|? ro ? ch (I & E) F']; subst. cbn [fst snd] in E. apply In_nth_error in I. destruct I as (j & I). destruct (holds_reach size h b j ro P H I) as (k & Hk & Ek).
    destruct (IH ch (S i) F') as (idx & L & Fi & R). exists (k :: idx). split; [cbn; now rewrite L|]. split; [now constructor|]. cbn [rows]. unfold row. now rewrite Ek, E, R.
  Qed.
  Lemma buffer_reads : forall size (l : list (list X)) n_env idx, 0 < size -> l <> [] -> Forall (fun x => length x = n_env) l -> length idx = n_env -> Forall (fun k => k < Nat.min size (length l)) idx ->
    exists b out, puts (init size) l = Some b /\ get b idx = Some out /\ Forall2 (fun e x => exists ro, In ro (lastn size l) /\ nth_error ro e = Some x) (seq 0 n_env) out.
  Proof.
    intros size l n_env idx P Ne Wf Li Fi. destruct (holds_puts size l [] (init size) P (holds_init size P)) as (b & E & H). cbn [app] in H. exists b. pose proof H as (_ & _ & Nm & _). rewrite <- Nm in Fi. destruct (rows_sound size l b n_env P H Wf idx 0 ltac:(lia) Fi) as (out & Eo & Fo). exists out. split; [exact E|]. rewrite <- Li. split; [|exact Fo].
    unfold get. assert (num b =? 0 = false) as ->; [|exact Eo]. apply Nat.eqb_neq. rewrite Nm. destruct l; [contradiction|]. cbn. lia.
  Qed.
  Lemma buffer_reaches : forall size (l : list (list X)) out, 0 < size -> l <> [] -> Forall2 (fun e x => exists ro, In ro (lastn size l) /\ nth_error ro e = Some x) (seq 0 (length out)) out ->
    exists b idx, puts (init size) l = Some b /\ Forall (fun k => k < Nat.min size (length l)) idx /\ length idx = length out /\ get b idx = Some out.
  Proof.
    intros size l out P Ne F. destruct (holds_puts size l [] (init size) P (holds_init size P)) as (b & E & H). cbn [app] in H. pose proof H as (_ & _ & Nm & _).
    assert (C : forall i (o : list X), Forall2 (fun e x => exists ro, In ro (lastn size l) /\ nth_error ro e = Some x) (seq i (length o)) o -> exists ch, Forall2 (fun ex ro => In ro (lastn size l) /\ nth_error ro (fst ex) = Some (snd ex)) (combine (seq i (length o)) o) ch).
    { intros i o. revert i. induction o as [|x o IH]; intros i Fo; [exists []; constructor|]. cbn [length seq] in Fo. inversion Fo as [|? ? ? ? (ro & I & Q) F']; subst. destruct (IH (S i) F') as (ch & Hc). exists (ro :: ch). cbn [length seq combine]. constructor; [split; [exact I|exact Q]|exact Hc]. }
    destruct (C 0 out F) as (ch & Hc). destruct (rows_reach size l b P H ch 0 out Hc) as (idx & Li & Fi & R). exists b, idx. split; [exact E|]. rewrite <- Nm. split; [exact Fi|]. split; [exact Li|].
    unfold get. assert (num b =? 0 = false) as ->; [|exact R]. apply Nat.eqb_neq. rewrite Nm. destruct l; [contradiction|]. cbn. lia.
  Qed.
  Lemma atleast_iff : forall size l n_steps frames, 0 < size -> 0 < n_steps -> exists b, puts (@init X size) l = Some b /\ (has_atleast b n_steps frames = true <-> frames < (Nat.min size (length l) + 1) * n_steps).
  Proof.
    intros size l n_steps frames P Pn. destruct (holds_puts size l [] (init size) P (holds_init size P)) as (b & E & H). exists b. split; [exact E|]. pose proof H as (_ & _ & Nm & _). cbn [app] in Nm. unfold has_atleast. rewrite Nm, Nat.leb_le.
    pose proof (Nat.div_mod frames n_steps ltac:(lia)) as D. pose proof (Nat.mod_upper_bound frames n_steps ltac:(lia)) as U. set (m := Nat.min size (length l)). split; intros Q; nia.
  Qed.
End Buffer.

(** *** Episodes *)
Lemma push_lastn : forall {Y} cap (l : list Y) y, push cap (lastn cap l) y = lastn cap (l ++ [y]).
Proof.
  intros Y n l o. unfold push, lastn. rewrite !app_length, skipn_length. cbn [length]. destruct (Nat.le_gt_cases n (length l)) as [H|H].
  - replace (length l - (length l - n) + 1 - n) with 1 by lia. destruct n as [|n].
    + rewrite !Nat.sub_0_r. rewrite skipn_all. cbn [app skipn]. symmetry. apply skipn_all2. rewrite app_length. cbn. lia.
    + assert (K : forall a b (m : list Y), skipn a (skipn b m) = skipn (a + b) m).
      { intros a b. induction b as [|b IH]; intros m; [now rewrite Nat.add_0_r|]. destruct m as [|x m]; [now rewrite !skipn_nil|]. rewrite Nat.add_succ_r. cbn [skipn]. apply IH. }
      replace (length l + 1 - S n) with (1 + (length l - S n)) by lia. rewrite <- K. rewrite (skipn_app (length l - S n)). replace (length l - S n - length l) with 0 by lia. reflexivity.
  - replace (length l - n) with 0 by lia. cbn [skipn]. replace (length l - 0 + 1 - n) with (length l + 1 - n) by lia. reflexivity.
Qed.
Lemma row_log : forall cap steps p L, feed_row cap p (lastn cap (map (@length Q) L)) (lastn cap (map total L)) steps =
  (snd (episodes p steps), lastn cap (map (@length Q) (L ++ fst (episodes p steps))), lastn cap (map total (L ++ fst (episodes p steps)))).
Proof.
  intros cap. induction steps as [|[r [|]] steps IH]; intros p L; cbn [feed_row episodes].
  - cbn [fst snd]. now rewrite app_nil_r.
  - rewrite !push_lastn. change [length (p ++ [r])] with (map (@length Q) [p ++ [r]]). change [total (p ++ [r])] with (map total [p ++ [r]]). rewrite <- !map_app. rewrite IH. destruct (episodes [] steps) as [f u]. cbn [fst snd]. now rewrite <- !app_assoc.
  - apply IH.
Qed.
Lemma episodes_app : forall s1 s2 p, episodes p (s1 ++ s2) = (fst (episodes p s1) ++ fst (episodes (snd (episodes p s1)) s2), snd (episodes (snd (episodes p s1)) s2)).
Proof.
  induction s1 as [|[r [|]] s1 IH]; intros s2 p; cbn [app episodes].
  - cbn [fst snd app]. now destruct (episodes p s2).
  - rewrite IH. destruct (episodes [] s1) as [f u]. cbn [fst snd]. reflexivity.
  - apply IH.
Qed.
(** One rollout: what it adds to the log, environment by environment. *)
Fixpoint adds (i : nat) (ps : list (list Q)) (rollout : list (list (Q * bool))) : list (nat * list Q) :=
  match ps, rollout with p :: ps', row :: rest => map (fun x => (i, x)) (fst (episodes p row)) ++ adds (S i) ps' rest | _, _ => [] end.
Lemma rows_log : forall cap rollout i ps (L : list (nat * list Q)), length ps = length rollout ->
  feed_rows cap ps (lastn cap (map (fun x => length (snd x)) L)) (lastn cap (map (fun x => total (snd x)) L)) rollout =
  (map (fun x => snd (episodes (fst x) (snd x))) (combine ps rollout), lastn cap (map (fun x => length (snd x)) (L ++ adds i ps rollout)), lastn cap (map (fun x => total (snd x)) (L ++ adds i ps rollout))).
Proof.
  intros cap. induction rollout as [|row rest IH]; intros i ps L H; destruct ps as [|p ps]; try discriminate; cbn [feed_rows adds combine map fst snd].
  - now rewrite app_nil_r.
  - rewrite <- (map_map snd (@length Q)), <- (map_map snd total). rewrite row_log. set (f := fst (episodes p row)).
    assert (E1 : map snd L ++ f = map snd (L ++ map (fun x => (i, x)) f)) by (rewrite map_app, map_map; cbn; now rewrite map_id). rewrite E1. rewrite !map_map. rewrite (IH (S i)) by (cbn in H; lia). now rewrite <- !app_assoc.
Qed.
Lemma of_env_app : forall i a b, of_env i (a ++ b) = of_env i a ++ of_env i b. Proof. intros. unfold of_env. now rewrite filter_app, map_app. Qed.
Lemma of_env_same : forall i f, of_env i (map (fun x => (i, x)) f) = f.
Proof. intros i f. unfold of_env. induction f as [|x f IH]; [reflexivity|]. cbn [map filter fst]. rewrite Nat.eqb_refl. cbn [map snd]. now rewrite IH. Qed.
Lemma of_env_other : forall i j f, i <> j -> of_env i (map (fun x => (j, x)) f) = [].
Proof. intros i j f H. unfold of_env. induction f as [|x f IH]; [reflexivity|]. cbn [map filter fst]. rewrite (proj2 (Nat.eqb_neq j i)) by congruence. exact IH. Qed.
Lemma adds_env : forall rollout k ps i, length ps = length rollout -> of_env i (adds k ps rollout) = if (k <=? i) && (i <? k + length ps) then fst (episodes (nth (i - k) ps []) (nth (i - k) rollout [])) else [].
Proof.
  induction rollout as [|row rest IH]; intros k ps i H; destruct ps as [|p ps]; try discriminate; cbn [adds].
  - cbn [length]. rewrite Nat.add_0_r. destruct (k <=? i) eqn:A, (i <? k) eqn:B; try reflexivity. apply Nat.leb_le in A. apply Nat.ltb_lt in B. lia.
  - rewrite of_env_app, IH by (cbn in H; lia). cbn [length]. destruct (Nat.eq_dec i k) as [->|N].
    + rewrite of_env_same. rewrite Nat.sub_diag. cbn [nth]. assert (S k <=? k = false) as -> by (apply Nat.leb_gt; lia). rewrite app_nil_r. rewrite Nat.leb_refl. assert (k <? k + S (length ps) = true) as -> by (apply Nat.ltb_lt; lia). reflexivity.
    + rewrite of_env_other by exact N. cbn [app]. destruct (k <=? i) eqn:A.
      * apply Nat.leb_le in A. assert (S k <=? i = true) as -> by (apply Nat.leb_le; lia). replace (S k + length ps) with (k + S (length ps)) by lia. replace (i - k) with (S (i - S k)) by lia. reflexivity.
      * apply Nat.leb_gt in A. assert (S k <=? i = false) as -> by (apply Nat.leb_gt; lia). reflexivity.
Qed.
Definition logged (cap n : nat) (done : list (list (list (Q * bool)))) (s : stats) (log : list (nat * list Q)) : Prop :=
  length (partial s) = n /\ lens s = lastn cap (map (fun x => length (snd x)) log) /\ sums s = lastn cap (map (fun x => total (snd x)) log) /\
  forall i, (i < n -> nth i (partial s) [] = snd (episodes [] (stream_of i done)) /\ of_env i log = fst (episodes [] (stream_of i done))) /\ (n <= i -> of_env i log = []).
Lemma logged_feed : forall cap n done s log ro, logged cap n done s log -> length ro = n -> exists more, logged cap n (done ++ [ro]) (feed cap s ro) (log ++ more).
Proof.
  intros cap n done s log ro (Lp & Ll & Ls & H) Lr. exists (adds 0 (partial s) ro). unfold feed. rewrite Ll, Ls. rewrite (rows_log cap ro 0) by lia. unfold logged. cbn [partial lens sums]. split; [rewrite map_length, combine_length; lia|]. split; [reflexivity|]. split; [reflexivity|].
  intros i. rewrite of_env_app, adds_env by lia. cbn [Nat.leb Nat.add]. rewrite Nat.sub_0_r, Lp. destruct (H i) as [H1 H2]. split; intros Hi.
  - destruct (H1 Hi) as [P E]. assert (i <? n = true) as -> by (apply Nat.ltb_lt; lia). cbn [andb].
    assert (St : stream_of i (done ++ [ro]) = stream_of i done ++ nth i ro []) by (unfold stream_of; rewrite map_app, concat_app; cbn; now rewrite app_nil_r).
    rewrite St, episodes_app. cbn [fst snd]. rewrite <- P, <- E. split; [|reflexivity].
    set (g := fun x : list Q * list (Q * bool) => snd (episodes (fst x) (snd x))). assert (N : nth i (map g (combine (partial s) ro)) [] = g (nth i (combine (partial s) ro) ([], []))) by (rewrite <- (map_nth g); f_equal). rewrite N, combine_nth by lia. reflexivity.
  - assert (i <? n = false) as -> by (apply Nat.ltb_ge; lia). rewrite (H2 Hi). reflexivity.
Qed.
Lemma logged_all : forall cap n rollouts, Forall (fun ro => length ro = n) rollouts -> exists log, logged cap n rollouts (feeds cap n rollouts) log.
Proof.
  intros cap n rollouts W. unfold feeds.
  assert (G : forall l done s log, Forall (fun ro => length ro = n) l -> logged cap n done s log -> exists log', logged cap n (done ++ l) (fold_left (feed cap) l s) log').
  { induction l as [|ro l IH]; intros done s log Wl H; [exists log; now rewrite app_nil_r|]. apply Forall_cons_iff in Wl. destruct Wl as [W1 Wl]. destruct (logged_feed cap n done s log ro H W1) as (more & H'). destruct (IH (done ++ [ro]) _ _ Wl H') as (log' & H''). exists log'. rewrite <- app_assoc in H''. exact H''. }
  apply (G rollouts [] (stats_init n) [] W). unfold logged, stats_init. cbn [partial lens sums map]. split; [apply repeat_length|]. split; [reflexivity|]. split; [reflexivity|]. intros i. split; [|reflexivity]. intros Hi. split; [|reflexivity]. cbn. clear. revert i. induction n as [|n IH]; intros [|i]; cbn; auto.
Qed.
Lemma all_env0 : forall log, (forall i, 1 <= i -> of_env i log = []) -> map snd log = of_env 0 log.
Proof.
  intros log H. induction log as [|[i x] log IH]; [reflexivity|]. destruct i as [|i].
  - unfold of_env. cbn [map filter fst snd Nat.eqb]. f_equal. apply IH. intros j Hj. specialize (H j Hj). unfold of_env in *. cbn [filter fst] in H. destruct j; [lia|exact H].
  - exfalso. specialize (H (S i) ltac:(lia)). unfold of_env in H. cbn [filter fst] in H. rewrite Nat.eqb_refl in H. discriminate.
Qed.
Lemma one_env_cut : forall cap r1 r2, Forall (fun ro => length ro = 1) r1 -> Forall (fun ro => length ro = 1) r2 -> stream_of 0 r1 = stream_of 0 r2 ->
  feeds cap 1 r1 = feeds cap 1 r2.
Proof.
  intros cap r1 r2 W1 W2 E. destruct (logged_all cap 1 r1 W1) as (l1 & P1 & A1 & B1 & H1). destruct (logged_all cap 1 r2 W2) as (l2 & P2 & A2 & B2 & H2).
  assert (M : map snd l1 = map snd l2). { rewrite (all_env0 l1) by (intros; now apply H1). rewrite (all_env0 l2) by (intros; now apply H2). rewrite (proj2 (proj1 (H1 0) ltac:(lia))), (proj2 (proj1 (H2 0) ltac:(lia))). now rewrite E. }
  rewrite <- (map_map snd (@length Q)) in A1, A2. rewrite <- (map_map snd total) in B1, B2. rewrite M in A1, B1. pose proof (proj1 (proj1 (H1 0) ltac:(lia))) as N1. pose proof (proj1 (proj1 (H2 0) ltac:(lia))) as N2. rewrite E, <- N2 in N1.
  destruct (feeds cap 1 r1) as [p1 a1 b1], (feeds cap 1 r2) as [p2 a2 b2]. cbn [partial lens sums] in *. subst. destruct p1 as [|x1 [|? ?]]; try discriminate. destruct p2 as [|x2 [|? ?]]; try discriminate. cbn in N1. now rewrite N1.
Qed.
Lemma byte_is : forall v, (0 <= v)%Q -> (v < 256)%Q -> as_byte v = inject_Z (Qfloor v) /\ (as_byte v == v <-> exists z, v == inject_Z z)%Q.
Proof.
  intros v H1 H2. assert (F : (0 <= Qfloor v < 256)%Z).
  { split; [change 0%Z with (Qfloor 0); now apply Qfloor_resp_le|]. pose proof (Qfloor_le v) as L. assert (X : (inject_Z (Qfloor v) < inject_Z 256)%Q) by (eapply Qle_lt_trans; [exact L|exact H2]). now rewrite <- Zlt_Qlt in X. }
  assert (E : as_byte v = inject_Z (Qfloor v)) by (unfold as_byte; now rewrite Z.mod_small). split; [exact E|]. rewrite E. split; [intros Q; exists (Qfloor v); now symmetry|]. intros (z & Q). rewrite (Qfloor_comp _ _ Q), Qfloor_Z. now symmetry.
Qed.
Lemma means_are : forall s, (sums s = [] -> mean_reward s = 0%Q) /\ (sums s <> [] -> (mean_reward s * inject_Z (Z.of_nat (length (sums s))) == total (sums s))%Q) /\
  (lens s = [] -> mean_length s = 0%Q) /\ (lens s <> [] -> (mean_length s * inject_Z (Z.of_nat (length (lens s))) == inject_Z (Z.of_nat (list_sum (lens s))))%Q).
Proof.
  assert (D : forall (x : Q) n, n <> 0 -> (x / inject_Z (Z.of_nat n) * inject_Z (Z.of_nat n) == x)%Q).
  { intros x n H. field. intros E. apply H. unfold Qeq in E. cbn [Qnum Qden inject_Z] in E. lia. }
  intros [p ls ss]. unfold mean_reward, mean_length. cbn [sums lens]. split; [now intros ->|]. split; [|split; [now intros ->|]].
  - intros H. destruct ss as [|x ss]; [contradiction|]. apply D. discriminate.
  - intros H. destruct ls as [|x ls]; [contradiction|]. apply D. discriminate.
Qed.
