From Coq Require Import List Arith ZArith QArith Bool Lia Lqa Permutation.
From Verif Require Import Base BaseFacts Swarm_Model MO_Model MO_Spec.
Import ListNotations.
Open Scope nat_scope.

(* ---------- dictionaries ---------- *)
Lemma key_eqb_eq a b : key_eqb a b = true <-> a = b.
Proof. destruct a, b; simpl; split; intros H; try discriminate; auto. apply Nat.eqb_eq in H; congruence. injection H as <-. apply Nat.eqb_refl. Qed.
Lemma key_eqb_refl a : key_eqb a a = true.
Proof. apply key_eqb_eq; auto. Qed.
Lemma key_dec (a b : key) : {a = b} + {a <> b}.
Proof. destruct (key_eqb a b) eqn:E; [left; apply key_eqb_eq; auto|right; intros ->; rewrite key_eqb_refl in E; discriminate]. Qed.
Lemma dget_dset {X} (d : dict X) k v k' : dget (dset d k v) k' = if key_eqb k' k then Some v else dget d k'.
Proof.
  induction d as [|[k0 w] d IH]; simpl.
  - destruct (key_eqb k' k); auto.
  - destruct (key_eqb k k0) eqn:E; simpl.
    + apply key_eqb_eq in E; subst. destruct (key_eqb k' k0); auto.
    + destruct (key_eqb k' k0) eqn:E'; auto.
      apply key_eqb_eq in E'; subst. destruct (key_eqb k0 k) eqn:E2; auto. apply key_eqb_eq in E2; subst. rewrite key_eqb_refl in E; discriminate.
Qed.
Lemma dset_keys {X} (d : dict X) k v k' : In k' (map fst (dset d k v)) <-> k' = k \/ In k' (map fst d).
Proof.
  induction d as [|[k0 w] d IH]; simpl; [intuition|].
  destruct (key_eqb k k0) eqn:E; simpl; [apply key_eqb_eq in E; subst; intuition|]. rewrite IH. intuition.
Qed.
Lemma dget_keys {X} (d : dict X) k : dget d k <> None <-> In k (map fst d).
Proof.
  induction d as [|[k0 w] d IH]; simpl; [intuition|]. destruct (key_eqb k k0) eqn:E.
  - apply key_eqb_eq in E; subst. split; auto. intros _. discriminate.
  - rewrite IH. split; auto. intros [->|H]; auto. rewrite key_eqb_refl in E; discriminate.
Qed.
Lemma dget_none {X} (d : dict X) k : dget d k = None <-> ~ In k (map fst d).
Proof. rewrite <- dget_keys. destruct (dget d k); split; intros H; try tauto; try congruence. exfalso; apply H; discriminate. Qed.
Lemma dset_nodup {X} (d : dict X) k v : NoDup (map fst d) -> NoDup (map fst (dset d k v)).
Proof.
  induction d as [|[k0 w] d IH]; simpl; intros N; [repeat constructor; auto|].
  inversion N as [|? ? N1 N2]; subst. destruct (key_eqb k k0) eqn:E; simpl; [constructor; auto|].
  constructor; auto. rewrite dset_keys. intros [->|H]; auto. rewrite key_eqb_refl in E; discriminate.
Qed.

Section M.
Context {S A O V : Type} (ereset : S -> (key -> option V) -> S) (enext : S -> A -> S) (obs_of : S -> O)
        (rew : S -> A -> Q) (done_of : S -> A -> bool) (info_of : S -> A -> key -> option V) (time : nat -> Q)
        (early : bool) (rkw ikw : list key).
Local Notation args := (key -> option V).
Local Notation mon := (@mon S V).
Local Notation reset := (mon_reset ereset obs_of early rkw).
Local Notation step := (mon_step enext obs_of rew done_of info_of time ikw).
Local Notation call1 := (mon_call ereset enext obs_of rew done_of info_of time early rkw ikw).
Local Notation session := (session ereset enext obs_of rew done_of info_of time early rkw ikw).
Local Notation bare := (bare ereset enext obs_of rew done_of info_of).

(** Updating from a list of keys. *)
Lemma keywords_ok ks : forall kw cur cur', take_keywords ks kw cur = (cur', None : option key) ->
  (forall k, In k ks -> exists v : V, kw k = Some v /\ dget cur' k = Some (Other v)) /\
  (forall k, ~ In k ks -> dget cur' k = dget cur k) /\
  (forall k, In k (map fst cur') <-> In k ks \/ In k (map fst cur)) /\ (NoDup (map fst cur) -> NoDup (map fst cur')).
Proof.
  induction ks as [|k ks IH]; simpl; intros kw cur cur' H.
  - injection H as <-. split; [intros k []|]. split; auto. split; [intuition|auto].
  - destruct (kw k) as [v|] eqn:E; [|discriminate]. destruct (IH _ _ _ H) as (H1 & H2 & H3 & H4).
    split; [|split; [|split]].
    + intros k0 Hk. destruct (in_dec key_dec k0 ks) as [I|I]; [apply H1; auto|].
      destruct Hk as [<-|Hk]; [|contradiction]. exists v. split; auto. rewrite H2 by auto. rewrite dget_dset, key_eqb_refl. auto.
    + intros k0 Hk. rewrite H2 by tauto. rewrite dget_dset. destruct (key_eqb k0 k) eqn:E'; auto. apply key_eqb_eq in E'; subst. exfalso; auto.
    + intros k0. rewrite H3, dset_keys. intuition.
    + intros N. apply H4, dset_nodup; auto.
Qed.
Lemma infos_ok ks : forall info (d d' : dict (cell V)), take_infos ks info d = inl d' ->
  (forall k, In k ks -> exists v : V, info k = Some v /\ dget d' k = Some (Other v)) /\
  (forall k, ~ In k ks -> dget d' k = dget d k) /\
  (forall k, In k (map fst d') <-> In k ks \/ In k (map fst d)).
Proof.
  induction ks as [|k ks IH]; simpl; intros info d d' H.
  - injection H as <-. split; [intros k []|]. split; auto. intuition.
  - destruct (info k) as [v|] eqn:E; [|discriminate]. destruct (IH _ _ _ H) as (H1 & H2 & H3).
    split; [|split].
    + intros k0 Hk. destruct (in_dec key_dec k0 ks) as [I|I]; [apply H1; auto|].
      destruct Hk as [<-|Hk]; [|contradiction]. exists v. split; auto. rewrite H2 by auto. rewrite dget_dset, key_eqb_refl. auto.
    + intros k0 Hk. rewrite H2 by tauto. rewrite dget_dset. destruct (key_eqb k0 k) eqn:E'; auto. apply key_eqb_eq in E'; subst. exfalso; auto.
    + intros k0. rewrite H3, dset_keys. intuition.
Qed.
Lemma update_ok {X} (e : dict X) : forall d, NoDup (map fst e) ->
  (forall k, dget (dupdate d e) k = match dget e k with Some v => Some v | None => dget d k end) /\
  (forall k, In k (map fst (dupdate d e)) <-> In k (map fst e) \/ In k (map fst d)).
Proof.
  induction e as [|[k0 w] e IH]; intros d N; unfold dupdate; simpl; [split; [auto|intuition]|].
  simpl in N. inversion N as [|? ? N1 N2]; subst. destruct (IH (dset d k0 w) N2) as (H1 & H2). unfold dupdate in H1, H2. split.
  - intros k. rewrite H1. destruct (key_eqb k k0) eqn:E.
    + apply key_eqb_eq in E; subst. assert (G : dget e k0 = None) by (apply dget_none; auto). rewrite G, dget_dset, key_eqb_refl. auto.
    + destruct (dget e k); auto. rewrite dget_dset, E. auto.
  - intros k. rewrite H2, dset_keys. intuition.
Qed.

(* ---------- sessions ---------- *)
Lemma session_app cs : forall ds m, session (cs ++ ds) m =
  let '(m1, xs) := session cs m in let '(m2, ys) := session ds m1 in (m2, xs ++ ys).
Proof.
  induction cs as [|c cs IH]; intros ds m; simpl.
  - destruct (session ds m); auto.
  - destruct (call1 c m) as [m1 x]. rewrite IH. destruct (session cs m1) as [m2 xs]. destruct (session ds m2); auto.
Qed.
Lemma session_length cs : forall m, length (snd (session cs m)) = length cs.
Proof. induction cs as [|c cs IH]; intros m; simpl; auto. destruct (call1 c m) as [m1 x]. specialize (IH m1). destruct (session cs m1). simpl in *. auto. Qed.

(** What the Monitor knows about the episode going on. *)
Definition knows (kw : args) (cur : list Q) (b : bool) (m : mon) : Prop :=
  m_needs m = negb b /\ (b = true -> m_rews m = cur) /\ NoDup (map fst (m_cur m)) /\
  (forall k, In k (map fst (m_cur m)) -> In k rkw) /\
  (b = true -> forall k, In k rkw -> exists v, kw k = Some v /\ dget (m_cur m) k = Some (Other v)).

Lemma knows_reset (m : mon) (s : S) kw cur' : NoDup (map fst (m_cur m)) -> (forall k, In k (map fst (m_cur m)) -> In k rkw) ->
  take_keywords rkw kw (m_cur m) = (cur', None : option key) ->
  knows kw [] true (Mon s [] false (m_er m) (m_el m) (m_et m) (m_total m) cur' (m_rows m) (m_clock m)).
Proof.
  intros K3 K4 T. destruct (keywords_ok _ _ _ _ T) as (T1 & T2 & T3 & T4). unfold knows; simpl.
  split; auto. split; auto. split; auto. split; [|auto]. intros k Hk. apply T3 in Hk. destruct Hk; auto.
Qed.

Lemma knows_done (m m' : mon) kw : NoDup (map fst (m_cur m)) -> (forall k, In k (map fst (m_cur m)) -> In k rkw) ->
  m_cur m' = m_cur m -> m_needs m' = true -> knows kw [] false m'.
Proof. intros K3 K4 E N. unfold knows. rewrite E, N. split; auto. split; [discriminate|]. split; auto. split; auto. discriminate. Qed.
Lemma knows_step (m m' : mon) kw cur r : knows kw cur true m -> m_cur m' = m_cur m -> m_needs m' = false -> m_rews m' = m_rews m ++ [r] ->
  knows kw (cur ++ [r]) true m'.
Proof.
  intros (K1 & K2 & K3 & K4 & K5) E N R. unfold knows. rewrite E, N, R, (K2 eq_refl). split; auto.
Qed.

Local Notation row_ok := (row_ok rkw ikw).

Lemma session_main cs : forall m kw cur b m' xs, knows kw cur b m -> session cs m = (m', xs) -> smooth xs ->
  (b = false -> cur = []) ->
  let fs := finished kw cur (combine cs xs) in
  m_er m' = m_er m ++ map (fun e => total (snd (fst e))) fs /\
  m_el m' = m_el m ++ map (fun e => length (snd (fst e))) fs /\
  m_total m' = m_total m + length (filter is_step xs) /\
  (exists rows, m_rows m' = m_rows m ++ rows /\ Forall2 row_ok fs rows) /\
  m_needs m' = negb (going b xs) /\ (going b xs = true -> m_rews m' = ongoing cur xs).
Proof.
  induction cs as [|c cs IH]; intros m kw cur b m' xs K E Sm Hb; cbn zeta.
  - simpl in E. injection E as <- <-. simpl. rewrite !app_nil_r. destruct K as (K1 & K2 & _).
    repeat split; auto; try lia. exists []. rewrite app_nil_r. auto.
  - simpl in E. destruct (call1 c m) as [m1 x] eqn:Ec. destruct (session cs m1) as [m2 xs'] eqn:Es. injection E as <- <-.
    inversion Sm as [|? ? Sx Sm']; subst.
    pose proof K as K0. destruct K as (K1 & K2 & K3 & K4 & K5).
    destruct c as [kw'|a]; simpl in Ec.
    + unfold mon_reset in Ec. destruct (negb early && negb (m_needs m)) eqn:G.
      * injection Ec as <- <-. simpl. exact (IH m kw cur b m2 xs' K0 Es Sm' Hb).
      * destruct (take_keywords rkw kw' (m_cur m)) as [cur' [k|]] eqn:T; injection Ec as <- <-; [simpl in Sx; discriminate|].
        simpl. destruct (keywords_ok _ _ _ _ T) as (T1 & T2 & T3 & T4).
        specialize (IH _ kw' [] true m2 xs' (knows_reset m (ereset (m_env m) kw') kw' cur' K3 K4 T) Es Sm' ltac:(discriminate)).
        apply IH.
    + unfold mon_step in Ec. destruct (m_needs m) eqn:N.
      * injection Ec as <- <-. simpl. exact (IH m kw cur b m2 xs' K0 Es Sm' Hb).
      * assert (Eb : b = true) by (destruct b; simpl in K1; congruence). subst b. specialize (K2 eq_refl). specialize (K5 eq_refl).
        destruct (done_of (m_env m) a) eqn:D.
        -- destruct (take_infos ikw (info_of (m_env m) a)
              [(KR, Num (round6 (fold_left Qplus (m_rews m ++ [rew (m_env m) a]) 0%Q)));
               (KL, Count (length (m_rews m ++ [rew (m_env m) a]))); (KT, Num (round6 (time (m_clock m) - time 0)))]) as [d1|k] eqn:I;
             injection Ec as <- <-; [|simpl in Sx; discriminate].
           simpl. destruct (infos_ok _ _ _ _ I) as (I1 & I2 & I3).
           destruct (update_ok (m_cur m) d1 K3) as (U1 & U2).
           pose proof (fun HK => IH _ kw [] false m2 xs' HK Es Sm' (fun _ => eq_refl)) as IH1; clear IH; specialize (IH1 ltac:(apply (knows_done m); auto)); rename IH1 into IH.
           simpl in IH. destruct IH as (J1 & J2 & J3 & (rows & J4 & J5) & J6). rewrite K2 in *.
           repeat split.
           ++ rewrite J1, <- app_assoc. reflexivity.
           ++ rewrite J2, <- app_assoc. reflexivity.
           ++ rewrite J3. lia.
           ++ exists (dupdate d1 (m_cur m) :: rows). rewrite J4, <- app_assoc. split; auto. constructor; auto.
              unfold MO_Spec.row_ok. repeat split.
              ** intros k Hk. destruct (K5 k Hk) as (v & V1 & V2). exists v. split; auto. rewrite U1, V2. auto.
              ** intros k Hk Hn. destruct (I1 k Hk) as (v & V1 & V2). exists v. split; auto. rewrite U1.
                 assert (Gk : dget (m_cur m) k = None) by (apply dget_none; auto). rewrite Gk; auto.
              ** intros Hk. rewrite in_app_iff in Hk. rewrite U1. assert (Gk : dget (m_cur m) KR = None) by (apply dget_none; auto). rewrite Gk.
                 rewrite I2 by tauto. simpl. reflexivity.
              ** intros Hk. rewrite in_app_iff in Hk. rewrite U1. assert (Gk : dget (m_cur m) KL = None) by (apply dget_none; auto). rewrite Gk.
                 rewrite I2 by tauto. simpl. reflexivity.
              ** intros k Hk. apply U2 in Hk. rewrite I3 in Hk. simpl in Hk. simpl. rewrite in_app_iff. intuition.
           ++ apply J6.
           ++ apply J6.
        -- injection Ec as <- <-. simpl.
           pose proof (fun HK => IH _ kw (cur ++ [rew (m_env m) a]) true m2 xs' HK Es Sm' ltac:(discriminate)) as IH1; clear IH; specialize (IH1 ltac:(apply (knows_step m); auto)); rename IH1 into IH.
           simpl in IH. destruct IH as (J1 & J2 & J3 & J4 & J6). repeat split; auto; try apply J6. rewrite J3. lia.
Qed.

Lemma knows_new s kw : knows kw [] false (new_mon s).
Proof. repeat split; simpl; auto; try discriminate. constructor. intros k []. Qed.

(** The main facts for a new Monitor. *)
Lemma mon_episodes s cs m xs : session cs (new_mon s) = (m, xs) -> smooth xs ->
  let fs := finished (fun _ => None) [] (combine cs xs) in
  m_er m = map (fun e => total (snd (fst e))) fs /\ m_el m = map (fun e => length (snd (fst e))) fs /\
  m_total m = length (filter is_step xs).
Proof.
  intros E Sm. destruct (session_main cs (new_mon s) (fun _ => None) [] false m xs (knows_new s _) E Sm ltac:(auto)) as (H1 & H2 & H3 & _).
  simpl in *. auto.
Qed.
Lemma mon_log s cs m xs : session cs (new_mon s) = (m, xs) -> smooth xs ->
  Forall2 row_ok (finished (fun _ => None) [] (combine cs xs)) (m_rows m).
Proof.
  intros E Sm. destruct (session_main cs (new_mon s) (fun _ => None) [] false m xs (knows_new s _) E Sm ltac:(auto)) as (_ & _ & _ & (rows & H1 & H2) & _).
  simpl in *. rewrite H1. auto.
Qed.
Lemma mon_state s cs m xs : session cs (new_mon s) = (m, xs) -> smooth xs ->
  m_needs m = negb (going false xs) /\ (going false xs = true -> m_rews m = ongoing [] xs).
Proof.
  intros E Sm. destruct (session_main cs (new_mon s) (fun _ => None) [] false m xs (knows_new s _) E Sm ltac:(auto)) as (_ & _ & _ & _ & H). auto.
Qed.

(** Guards. *)
Lemma mon_step_guard s cs m xs a : session cs (new_mon s) = (m, xs) -> smooth xs ->
  (snd (step a m) = RError NeedsReset <-> going false xs = false) /\ (snd (step a m) = RError NeedsReset -> fst (step a m) = m).
Proof.
  intros E Sm. destruct (mon_state _ _ _ _ E Sm) as (N & _). unfold mon_step. rewrite N. destruct (going false xs); simpl; [|split; [split; auto|auto]].
  destruct (done_of (m_env m) a); simpl; [|split; [split; discriminate|discriminate]].
  destruct (take_infos ikw _ _); simpl; (split; [split; discriminate|discriminate]).
Qed.
Lemma mon_reset_guard s cs m xs kw : session cs (new_mon s) = (m, xs) -> smooth xs ->
  (snd (reset kw m) = RError Early <-> early = false /\ going false xs = true) /\ (snd (reset kw m) = RError Early -> fst (reset kw m) = m).
Proof.
  intros E Sm. destruct (mon_state _ _ _ _ E Sm) as (N & _). unfold mon_reset. rewrite N, negb_involutive.
  assert (G : forall X : mon * result O args V, snd X <> RError Early -> (early = false /\ going false xs = true -> False) ->
    (snd X = RError Early <-> early = false /\ going false xs = true) /\ (snd X = RError Early -> fst X = m)).
  { intros X H1 H2. split; [split; intros; exfalso; auto|intros; exfalso; auto]. }
  destruct (negb early && going false xs) eqn:G1.
  - apply andb_true_iff in G1. destruct G1 as (G1 & G2). apply negb_true_iff in G1. simpl. split; [split; auto|auto].
  - apply G; [destruct (take_keywords rkw kw (m_cur m)) as [c [k|]]; discriminate|]. intros (H1 & H2). rewrite H1, H2 in G1. discriminate.
Qed.

(** Steps in no finished episode were cut off by an early reset or belong to the one going on. *)
Lemma steps_split : negb early = true -> forall cs m kw cur b m' xs, knows kw cur b m -> session cs m = (m', xs) -> smooth xs ->
  (b = false -> cur = []) ->
  length cur + length (filter is_step xs) = list_sum (map (fun e => length (snd (fst e))) (finished kw cur (combine cs xs))) + length (ongoing cur xs).
Proof.
  intros He. induction cs as [|c cs IH]; intros m kw cur b m' xs K E Sm Hb.
  - simpl in E. injection E as <- <-. simpl. lia.
  - simpl in E. destruct (call1 c m) as [m1 x] eqn:Ec. destruct (session cs m1) as [m2 xs'] eqn:Es. injection E as <- <-.
    inversion Sm as [|? ? Sx Sm']; subst.
    pose proof K as K0. destruct K as (K1 & K2 & K3 & K4 & K5).
    destruct c as [kw'|a]; simpl in Ec.
    + unfold mon_reset in Ec. destruct (negb early && negb (m_needs m)) eqn:G.
      * injection Ec as <- <-. simpl. exact (IH m kw cur b m2 xs' K0 Es Sm' Hb).
      * destruct (take_keywords rkw kw' (m_cur m)) as [cur' [k|]] eqn:T; injection Ec as <- <-; [simpl in Sx; discriminate|].
        simpl. destruct (keywords_ok _ _ _ _ T) as (T1 & T2 & T3 & T4).
        assert (Bf : b = false). { rewrite He in G. simpl in G. destruct b; auto. simpl in K1. rewrite K1 in G. discriminate. }
        rewrite (Hb Bf). exact (IH _ kw' [] true m2 xs' (knows_reset m (ereset (m_env m) kw') kw' cur' K3 K4 T) Es Sm' ltac:(discriminate)).
    + unfold mon_step in Ec. destruct (m_needs m) eqn:N.
      * injection Ec as <- <-. simpl. exact (IH m kw cur b m2 xs' K0 Es Sm' Hb).
      * assert (Eb : b = true) by (destruct b; simpl in K1; congruence). subst b. specialize (K2 eq_refl). specialize (K5 eq_refl).
        destruct (done_of (m_env m) a) eqn:D.
        -- destruct (take_infos ikw (info_of (m_env m) a) _) as [d1|k] eqn:I; injection Ec as <- <-; [|simpl in Sx; discriminate].
           simpl. pose proof (fun HK => IH _ kw [] false m2 xs' HK Es Sm' (fun _ => eq_refl)) as IH1; clear IH; specialize (IH1 ltac:(apply (knows_done m); auto)); rename IH1 into IH.
           rewrite app_length. simpl in *. lia.
        -- injection Ec as <- <-. simpl.
           pose proof (fun HK => IH _ kw (cur ++ [rew (m_env m) a]) true m2 xs' HK Es Sm' ltac:(discriminate)) as IH1; clear IH; specialize (IH1 ltac:(apply (knows_step m); auto)); rename IH1 into IH.
           rewrite app_length in IH. simpl in IH. lia.
Qed.
Lemma mon_count s cs m xs : early = false -> session cs (new_mon s) = (m, xs) -> smooth xs ->
  m_total m = list_sum (m_el m) + length (ongoing [] xs).
Proof.
  intros He E Sm. destruct (mon_episodes _ _ _ _ E Sm) as (_ & H2 & H3). rewrite H2, H3.
  exact (steps_split (proj2 (negb_true_iff _) He) cs _ _ [] false _ _ (knows_new s (fun _ => None)) E Sm ltac:(auto)).
Qed.

(** Transparency. *)
Lemma mon_transparent cs : forall m m' xs, session cs m = (m', xs) -> Forall (fun x => info_error x = false) xs ->
  let ok := accepted (combine cs xs) in bare (map fst ok) (m_env m) = (m_env m', map (fun cx => forget (snd cx)) ok).
Proof.
  induction cs as [|c cs IH]; intros m m' xs E Sm; cbn zeta.
  - simpl in E. injection E as <- <-. reflexivity.
  - simpl in E. destruct (call1 c m) as [m1 x] eqn:Ec. destruct (session cs m1) as [m2 xs'] eqn:Es. injection E as <- <-.
    inversion Sm as [|? ? Sx Sm']; subst. specialize (IH _ _ _ Es Sm'). cbn zeta in IH.
    destruct c as [kw'|a]; simpl in Ec.
    + unfold mon_reset in Ec. destruct (negb early && negb (m_needs m)) eqn:G.
      * injection Ec as <- <-. exact IH.
      * destruct (take_keywords rkw kw' (m_cur m)) as [cur' [k|]] eqn:T; injection Ec as <- <-.
        -- exact IH.
        -- simpl. simpl in IH. unfold accepted in *. rewrite IH. reflexivity.
    + unfold mon_step in Ec. destruct (m_needs m) eqn:N.
      * injection Ec as <- <-. exact IH.
      * destruct (done_of (m_env m) a) eqn:D.
        -- destruct (take_infos ikw (info_of (m_env m) a) _) as [d1|k] eqn:I; injection Ec as <- <-; [|simpl in Sx; discriminate].
           simpl. simpl in IH. unfold accepted in *. rewrite IH, D. reflexivity.
        -- injection Ec as <- <-. simpl. simpl in IH. unfold accepted in *. rewrite IH, D. reflexivity.
Qed.

(** Times. *)
Lemma ascending_app l a : ascending l -> (forall b, In b l -> (b <= a)%Q) -> ascending (l ++ [a]).
Proof.
  induction l as [|x l IH]; intros H1 H2; [simpl; auto|]. destruct l as [|y l].
  - simpl. split; auto. apply H2. left; auto.
  - destruct H1 as (H1 & H3). split; auto. apply IH; auto. intros b Hb. apply H2. right; auto.
Qed.
Lemma mon_times : (forall i, (time i <= time (1 + i))%Q) -> forall cs m m' xs, session cs m = (m', xs) ->
  ascending (m_et m) -> (forall t, In t (m_et m) -> (0 <= t <= time (m_clock m) - time 0)%Q) ->
  ascending (m_et m') /\ (forall t, In t (m_et m') -> (0 <= t <= time (m_clock m') - time 0)%Q).
Proof.
  intros Ht. assert (Hm : forall i, (time 0 <= time i)%Q) by (intros i; induction i as [|i IHi]; [lra|specialize (Ht i); simpl in *; lra]).
  induction cs as [|c cs IH]; intros m m' xs E H1 H2.
  - simpl in E. injection E as <- <-. auto.
  - simpl in E. destruct (call1 c m) as [m1 x] eqn:Ec. destruct (session cs m1) as [m2 xs'] eqn:Es. injection E as <- <-.
    apply (IH _ _ _ Es).
    + destruct c as [kw'|a]; simpl in Ec; unfold mon_reset, mon_step in Ec.
      * destruct (negb early && negb (m_needs m)); [injection Ec as <- <-; auto|].
        destruct (take_keywords rkw kw' (m_cur m)) as [cur' [k|]]; injection Ec as <- <-; auto.
      * destruct (m_needs m); [injection Ec as <- <-; auto|]. destruct (done_of (m_env m) a); [|injection Ec as <- <-; auto].
        destruct (take_infos _ _ _); injection Ec as <- <-; auto. simpl. apply ascending_app; auto. intros b Hb. apply H2 in Hb.
        specialize (Ht (m_clock m)). simpl in Ht. lra.
    + destruct c as [kw'|a]; simpl in Ec; unfold mon_reset, mon_step in Ec.
      * destruct (negb early && negb (m_needs m)); [injection Ec as <- <-; auto|].
        destruct (take_keywords rkw kw' (m_cur m)) as [cur' [k|]]; injection Ec as <- <-; auto.
      * destruct (m_needs m); [injection Ec as <- <-; auto|]. destruct (done_of (m_env m) a); [|injection Ec as <- <-; auto].
        pose proof (Ht (m_clock m)) as T1. pose proof (Ht (1 + m_clock m)) as T2. simpl in T1, T2.
        destruct (take_infos _ _ _); injection Ec as <- <-; simpl; intros t Hin.
        -- apply in_app_iff in Hin. destruct Hin as [Hin|[<-|[]]]; [apply H2 in Hin; lra|]. specialize (Hm (Datatypes.S (m_clock m))). lra.
        -- apply H2 in Hin. lra.
Qed.

(** Missing keywords. *)
Lemma keywords_missing ks : forall kw (cur : dict (cell V)), (exists k, In k ks /\ kw k = None) ->
  exists c k, take_keywords ks kw cur = (c, Some k) /\ In k ks /\ kw k = None.
Proof.
  induction ks as [|k ks IH]; intros kw cur (k0 & Hin & Hk); [destruct Hin|]. simpl. destruct (kw k) eqn:E.
  - destruct Hin as [->|Hin]; [congruence|]. destruct (IH kw (dset cur k (Other v)) (ex_intro _ k0 (conj Hin Hk))) as (c & k1 & H1 & H2 & H3). exists c, k1. split; [exact H1|]. split; [right; exact H2|exact H3].
  - exists cur, k. split; [reflexivity|]. split; [left; reflexivity|exact E].
Qed.
Lemma mon_keyword m kw : (early = true \/ m_needs m = true) -> (exists k, In k rkw /\ kw k = None) ->
  exists m' k, reset kw m = (m', RError (NoKeyword k)) /\ m_env m' = m_env m /\ m_total m' = m_total m /\
  (forall a, snd (step a m') <> RError NeedsReset /\ m_env (fst (step a m')) = enext (m_env m) a) /\
  (early = false -> forall kw', reset kw' m' = (m', RError Early)).
Proof.
  intros Hg Hk. destruct (keywords_missing rkw kw (m_cur m) Hk) as (c & k & T & _ & _).
  unfold mon_reset at 1. assert (G : negb early && negb (m_needs m) = false) by (destruct Hg as [-> | ->]; [auto|apply andb_false_r]).
  rewrite G, T. eexists. exists k. split; [reflexivity|]. simpl. split; auto. split; auto. split.
  - intros a. unfold mon_step. simpl. destruct (done_of (m_env m) a); simpl; [|split; [discriminate|auto]].
    destruct (take_infos _ _ _); simpl; split; auto; discriminate.
  - intros He kw'. unfold mon_reset. rewrite He. reflexivity.
Qed.
Lemma infos_missing ks : forall info (d : dict (cell V)), (exists k, In k ks /\ info k = None) ->
  exists k, take_infos ks info d = inr k /\ In k ks /\ info k = None.
Proof.
  induction ks as [|k ks IH]; intros info d (k0 & Hin & Hk); [destruct Hin|]. simpl. destruct (info k) eqn:E.
  - destruct Hin as [->|Hin]; [congruence|]. destruct (IH info (dset d k (Other v)) (ex_intro _ k0 (conj Hin Hk))) as (k1 & H1 & H2 & H3). exists k1. split; [exact H1|]. split; [right; exact H2|exact H3].
  - exists k. split; [reflexivity|]. split; [left; reflexivity|exact E].
Qed.
Lemma mon_info m a : m_needs m = false -> done_of (m_env m) a = true -> (exists k, In k ikw /\ info_of (m_env m) a k = None) ->
  exists m' k, step a m = (m', RError (NoInfo k)) /\ m_env m' = enext (m_env m) a /\ m_needs m' = true /\
  m_total m' = m_total m /\ m_er m' = m_er m /\ m_el m' = m_el m /\ m_rows m' = m_rows m.
Proof.
  intros N D H. unfold mon_step. rewrite N, D.
  destruct (infos_missing ikw _ [(KR, Num (round6 (fold_left Qplus (m_rews m ++ [rew (m_env m) a]) 0%Q)));
               (KL, Count (length (m_rews m ++ [rew (m_env m) a]))); (KT, Num (round6 (time (m_clock m) - time 0)))] H) as (k & -> & _ & _).
  eexists. exists k. split; [reflexivity|]. simpl. auto 10.
Qed.
Lemma mon_no_keyword s cs m xs : rkw = [] -> ikw = [] -> session cs (new_mon s) = (m, xs) -> smooth xs.
Proof.
  intros H1 H2. revert xs. generalize (new_mon s : mon). intros m0 xs. revert m0 m xs.
  induction cs as [|c cs IH]; intros m0 m xs E; simpl in E.
  - injection E as <- <-. constructor.
  - destruct (call1 c m0) as [m1 x] eqn:Ec. destruct (session cs m1) as [m2 xs'] eqn:Es. injection E as <- <-.
    constructor; [|apply (IH _ _ _ Es)].
    destruct c as [kw'|a]; simpl in Ec; unfold mon_reset, mon_step in Ec.
    + destruct (negb early && negb (m_needs m0)); [injection Ec as <- <-; auto|]. rewrite H1 in Ec. simpl in Ec. injection Ec as <- <-; auto.
    + destruct (m_needs m0); [injection Ec as <- <-; auto|]. destruct (done_of (m_env m0) a); [|injection Ec as <- <-; auto].
      rewrite H2 in Ec. simpl in Ec. injection Ec as <- <-; auto.
Qed.
End M.

(** Rounding. *)
Lemma qfloor_frac q : (0 <= q - inject_Z (Qround.Qfloor q) /\ q - inject_Z (Qround.Qfloor q) < 1)%Q.
Proof. pose proof (Qround.Qfloor_le q). pose proof (Qround.Qlt_floor q). rewrite inject_Z_plus in *. change (inject_Z 1) with 1%Q in *. lra. Qed.
Lemma round6_near x : (round6 x - (1 # 2000000) <= x <= round6 x + (1 # 2000000))%Q.
Proof.
  unfold round6. set (y := (x * 1000000)%Q).
  assert (H : (inject_Z (py_round y) - (1#2) <= y <= inject_Z (py_round y) + (1#2))%Q).
  { unfold py_round. destruct (qfloor_frac y) as (F1 & F2). cbn zeta.
    destruct (Qcompare (y - inject_Z (Qround.Qfloor y)) (1#2)) eqn:E.
    - apply Qeq_alt in E. destruct (Z.even (Qround.Qfloor y)); [|rewrite inject_Z_plus; change (inject_Z 1) with 1%Q]; lra.
    - apply Qlt_alt in E. lra.
    - apply Qgt_alt in E. rewrite inject_Z_plus. change (inject_Z 1) with 1%Q. lra. }
  assert (E : (inject_Z (py_round y) / 1000000 == inject_Z (py_round y) * (1 # 1000000))%Q) by (field).
  rewrite E. assert (E2 : (y == x * 1000000)%Q) by reflexivity. lra.
Qed.
