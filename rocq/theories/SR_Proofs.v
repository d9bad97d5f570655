(** The annealing chain: what one pass and the whole loop do. *)
Require Import List ZArith Arith Lia Bool Reals Lra.
Require Import Verif.SR_Model Verif.SR_Spec.
Import ListNotations.

Lemma bind_done : forall V W (o : outcome V) (f : V -> outcome W) w,
  bind o f = Done w -> exists v, o = Done v /\ f v = Done w.
Proof. intros V W [v| |] f w; cbn; intros H; try discriminate. exists v; auto. Qed.
Lemma lift_done : forall V (o : option V) v, lift o = Done v -> o = Some v.
Proof. intros V [a|] v; cbn; intros H; try discriminate. congruence. Qed.

(** Everything one pass changes. *)
Lemma step_inv : forall fuel c l fit d s s',
  anneal_step fuel c l fit d s = Done s' ->
  exists T m ev,
    temperature c (S (s_step s)) = Some T /\
    move fuel c l (s_x s) (s_inds s) d = Done m /\
    c_freq c <> 0 /\
    s_step s' = S (s_step s) /\ s_inds s' = snd (fst m) /\ s_events s' = s_events s ++ [ev] /\
    ev = mkEvent (s_x s) (- s_eprev s) (fst (fst m)) (fit (S (s_step s)) (fst (fst m))) T (d_alpha d)
                 (s_x s') (- s_eprev s') (snd m) /\
    ((s_xprev s = s_x s -> accepted ev /\
        s_x s' = e_new ev /\ s_xprev s' = e_new ev /\ (- s_eprev s' = e_new_r ev)%R /\
        ((- s_ebest s < e_new_r ev)%R /\ s_xbest s' = e_new ev /\ (- s_ebest s' = e_new_r ev)%R \/
         (e_new_r ev <= - s_ebest s)%R /\ s_xbest s' = s_xbest s /\ s_ebest s' = s_ebest s)) \/
     (s_xprev s = s_x s -> ~ accepted ev /\ s_x s' = s_x s /\ s_xprev s' = s_x s /\
        s_eprev s' = s_eprev s /\ (e_new_r ev < - s_eprev s)%R /\
        s_xbest s' = s_xbest s /\ s_ebest s' = s_ebest s)) /\
    (exists a i, counts accepted [ev] a /\ counts improving [ev] i /\
      ((S (s_step s) mod c_freq c = 0 \/ S (s_step s) = c_steps c) /\
       s_trials s' = 0 /\ s_accepts s' = 0 /\ s_improves s' = 0 /\
       s_reports s' = s_reports s ++
         [mkReport (S (s_step s)) T (s_accepts s + a) (s_improves s + i) (S (s_trials s)) (- s_ebest s') (s_xbest s')] \/
       ~ (S (s_step s) mod c_freq c = 0 \/ S (s_step s) = c_steps c) /\
       s_trials s' = S (s_trials s) /\ s_accepts s' = s_accepts s + a /\ s_improves s' = s_improves s + i /\
       s_reports s' = s_reports s)).
Proof.
  intros fuel c l fit d s s' H. unfold anneal_step in H.
  apply bind_done in H. destruct H as (T & HT & H). apply lift_done in HT.
  apply bind_done in H. destruct H as (m & Hm & H).
  cbv zeta in H.
  set (x := fst (fst m)) in *. set (r := fit (S (s_step s)) x) in *.
  destruct (c_freq c) as [|fr] eqn:Ef; [discriminate|].
  assert (Hrep : forall b : bool, b = ((S (s_step s) mod S fr =? 0) || (S (s_step s) =? c_steps c))%bool ->
     if b then (S (s_step s) mod S fr = 0 \/ S (s_step s) = c_steps c)
     else ~ (S (s_step s) mod S fr = 0 \/ S (s_step s) = c_steps c)).
  { intros b ->. destruct ((S (s_step s) mod S fr =? 0) || (S (s_step s) =? c_steps c))%bool eqn:E.
    - apply orb_true_iff in E. destruct E as [E|E]; apply Nat.eqb_eq in E; auto.
    - apply orb_false_iff in E. destruct E as [E1 E2].
      apply Nat.eqb_neq in E1. apply Nat.eqb_neq in E2. intros [E|E]; contradiction. }
  destruct (Rlt_dec 0 (- r - s_eprev s)) as [D1|D1];
    [destruct (Rlt_dec (exp (- (- r - s_eprev s) / T)) (d_alpha d)) as [D2|D2]|].
  - (* the point proposed is not taken *)
    exists T, m. eexists. split; [exact HT|]. split; [exact Hm|]. split; [discriminate|].
    assert (Ha : ~ (- s_eprev s <= r \/ d_alpha d <= exp ((r - - s_eprev s) / T))%R).
    { intros [E|E]; [lra|]. replace (r - - s_eprev s)%R with (- (- r - s_eprev s))%R in E by lra. lra. }
    destruct ((S (s_step s) mod S fr =? 0) || (S (s_step s) =? c_steps c))%bool eqn:E in H;
      pose proof (Hrep _ (eq_sym E)) as Hr; injection H as <-; cbn [s_x s_xprev s_xbest s_eprev s_ebest
        s_step s_trials s_accepts s_improves s_inds s_events s_reports].
    + split; [reflexivity|]. split; [reflexivity|]. split; [reflexivity|]. split; [reflexivity|].
      split; [right; intros Hp; rewrite Hp; unfold accepted; cbn; repeat split; auto; lra|].
      exists 0, 0. split; [apply counts_no; [exact Ha|constructor]|].
      split; [apply counts_no; [unfold improving; cbn; lra|constructor]|].
      left. rewrite !Nat.add_0_r. repeat split; auto.
    + split; [reflexivity|]. split; [reflexivity|]. split; [reflexivity|]. split; [reflexivity|].
      split; [right; intros Hp; rewrite Hp; unfold accepted; cbn; repeat split; auto; lra|].
      exists 0, 0. split; [apply counts_no; [exact Ha|constructor]|].
      split; [apply counts_no; [unfold improving; cbn; lra|constructor]|].
      right. rewrite !Nat.add_0_r. repeat split; auto.
  - (* taken although it is a loss *)
    exists T, m. eexists. split; [exact HT|]. split; [exact Hm|]. split; [discriminate|].
    assert (Ha : (- s_eprev s <= r \/ d_alpha d <= exp ((r - - s_eprev s) / T))%R).
    { right. replace (r - - s_eprev s)%R with (- (- r - s_eprev s))%R by lra. lra. }
    destruct (Rlt_dec (- r) (s_ebest s)) as [B|B], (Rlt_dec (- r - s_eprev s) 0) as [I|I]; try (exfalso; lra);
    destruct ((S (s_step s) mod S fr =? 0) || (S (s_step s) =? c_steps c))%bool eqn:E in H;
      pose proof (Hrep _ (eq_sym E)) as Hr; injection H as <-; cbn [s_x s_xprev s_xbest s_eprev s_ebest
        s_step s_trials s_accepts s_improves s_inds s_events s_reports].
    all: split; [reflexivity|]; split; [reflexivity|]; split; [reflexivity|]; split; [reflexivity|].
    all: split; [left; intros Hp; unfold accepted; cbn; fold x r; repeat split; auto; try lra|].
    all: try (left; repeat split; auto; lra).
    all: try (right; repeat split; auto; lra).
    all: exists 1, 0; split; [apply counts_yes; [exact Ha|constructor]|];
      split; [apply counts_no; [unfold improving; cbn; fold x r; lra|constructor]|].
    all: replace (s_accepts s + 1) with (S (s_accepts s)) by lia; rewrite ?Nat.add_0_r.
    all: first [left; repeat split; solve [auto] | right; repeat split; solve [auto]].
  - exists T, m. eexists. split; [exact HT|]. split; [exact Hm|]. split; [discriminate|].
    assert (Ha : (- s_eprev s <= r \/ d_alpha d <= exp ((r - - s_eprev s) / T))%R) by (left; lra).
    destruct (Rlt_dec (- r) (s_ebest s)) as [B|B], (Rlt_dec (- r - s_eprev s) 0) as [I|I];
    destruct ((S (s_step s) mod S fr =? 0) || (S (s_step s) =? c_steps c))%bool eqn:E in H;
      pose proof (Hrep _ (eq_sym E)) as Hr; injection H as <-; cbn [s_x s_xprev s_xbest s_eprev s_ebest
        s_step s_trials s_accepts s_improves s_inds s_events s_reports].
    all: split; [reflexivity|]; split; [reflexivity|]; split; [reflexivity|]; split; [reflexivity|].
    all: split; [left; intros Hp; unfold accepted; cbn; fold x r; repeat split; auto; try lra|].
    all: try (left; repeat split; auto; lra).
    all: try (right; repeat split; auto; lra).
    all: replace (S (s_accepts s)) with (s_accepts s + 1) by lia.
    all: try replace (S (s_improves s)) with (s_improves s + 1) by lia.
    all: first [
      (exists 1, 1; split; [apply counts_yes; [exact Ha|constructor]|];
       split; [apply counts_yes; [unfold improving; cbn; fold x r; lra|constructor]|];
       first [left; repeat split; solve [auto] | right; repeat split; solve [auto]])
    | (exists 1, 0; split; [apply counts_yes; [exact Ha|constructor]|];
       split; [apply counts_no; [unfold improving; cbn; fold x r; lra|constructor]|];
       rewrite ?Nat.add_0_r;
       first [left; repeat split; solve [auto] | right; repeat split; solve [auto]])].
Qed.

(** Invariants of the loop. *)
Lemma loop_inv : forall fuel c l fit D (P : state -> Prop),
  (forall s s', s_step s <= c_steps c -> P s -> anneal_step fuel c l fit (D (S (s_step s))) s = Done s' -> P s') ->
  forall n s s', P s -> anneal_loop n fuel c l fit D s = Done s' -> P s' /\ c_steps c < s_step s'.
Proof.
  intros fuel c l fit D P Hstep. induction n as [|n IH]; intros s s' HP H; cbn in H.
  - destruct (s_step s <=? c_steps c) eqn:E; [discriminate|]. injection H as <-.
    apply Nat.leb_gt in E. auto.
  - destruct (s_step s <=? c_steps c) eqn:E.
    + apply bind_done in H. destruct H as (s1 & H1 & H2).
      apply Nat.leb_le in E. apply (IH s1 s'); [|exact H2]. apply (Hstep s); auto.
    + injection H as <-. apply Nat.leb_gt in E. auto.
Qed.

(** The state before the first step. *)
Definition start_state (c : card) (fit : nat -> list Z -> R) (x0 : list Z) : state :=
  mkState x0 x0 x0 (- fit 0%nat x0)%R (- fit 0%nat x0)%R 0 0 0 0 (seq 0 (length (c_rows c))) [] [].

Lemma build_inv : forall fuel c fit raws D s,
  build fuel c fit raws D = Done s ->
  exists l x0, init_limits c = Done l /\ init_x c l raws = Done x0 /\ c_swap c <> OtherSwap /\
    anneal_loop (S (S (c_steps c))) fuel c l fit D (start_state c fit x0) = Done s.
Proof.
  intros fuel c fit raws D s H. unfold build in H.
  apply bind_done in H. destruct H as (l & Hl & H).
  apply bind_done in H. destruct H as (x0 & Hx & H).
  exists l, x0. destruct (known_swap (c_swap c)) eqn:E; [|discriminate].
  repeat split; auto. intros A. rewrite A in E. discriminate.
Qed.

(** ** The number of moves. *)
Lemma loop_count : forall fuel c l fit D n s0 s,
  s_step s0 = 0 -> s_events s0 = [] ->
  anneal_loop n fuel c l fit D s0 = Done s ->
  s_step s = S (c_steps c) /\ length (s_events s) = S (c_steps c).
Proof.
  intros fuel c l fit D n s0 s H0 H1 H.
  apply (loop_inv fuel c l fit D (fun s => s_step s <= S (c_steps c) /\ length (s_events s) = s_step s)) in H.
  - destruct H as ((A & B) & C). lia.
  - intros a b Ha (A & B) Hs. apply step_inv in Hs.
    destruct Hs as (T & m & ev & _ & _ & _ & E1 & _ & E2 & _).
    rewrite E1, E2, app_length. cbn. lia.
  - rewrite H0, H1. cbn. lia.
Qed.

Lemma build_count : forall fuel c fit raws D s,
  build fuel c fit raws D = Done s -> length (s_events s) = S (c_steps c).
Proof.
  intros fuel c fit raws D s H. apply build_inv in H. destruct H as (l & x0 & _ & _ & _ & H).
  apply loop_count in H; tauto.
Qed.

(** ** The chain. *)
Lemma linked_app : forall es x r e,
  linked x r es ->
  (let x' := last (map e_after es) x in let r' := last (map e_after_r es) r in
   e_from e = x' /\ e_from_r e = r' /\
   (accepted e -> e_after e = e_new e /\ e_after_r e = e_new_r e) /\
   (~ accepted e -> e_after e = x' /\ e_after_r e = r')) ->
  linked x r (es ++ [e]).
Proof.
  induction es as [|a es IH]; intros x r e H (A & B & C & D).
  - cbn in *. constructor; auto. constructor.
  - inversion H as [|x1 r1 e1 es1 E1 E2 E3 E4 E5]; subst. cbn [app]. constructor; auto.
    apply IH; auto. cbv zeta.
    replace (last (map e_after (a :: es)) (e_from a)) with (last (map e_after es) (e_after a)) in *.
    replace (last (map e_after_r (a :: es)) (e_from_r a)) with (last (map e_after_r es) (e_after_r a)) in *.
    + auto.
    + clear. cbn. destruct es as [|b es]; [reflexivity|]. cbn. generalize (e_after_r b).
      induction es as [|c es IH]; intros q; cbn; [reflexivity|]. apply IH.
    + clear. cbn. destruct es as [|b es]; [reflexivity|]. cbn. generalize (e_after b).
      induction es as [|c es IH]; intros q; cbn; [reflexivity|]. apply IH.
Qed.
Lemma last_snoc : forall V (l : list V) a d, last (l ++ [a]) d = a.
Proof. intros V l a d. apply last_last. Qed.

(** The facts that hold before and after every step. *)
Record chain_ok (c : card) (fit : nat -> list Z -> R) (D : nat -> draw) (x0 : list Z) (s : state) : Prop := {
  ok_prev : s_xprev s = s_x s;
  ok_len : length (s_events s) = s_step s;
  ok_x : s_x s = last (map e_after (s_events s)) x0;
  ok_e : (- s_eprev s = last (map e_after_r (s_events s)) (fit 0%nat x0))%R;
  ok_link : linked x0 (fit 0%nat x0) (s_events s);
  ok_best : first_best (evaluated x0 (fit 0%nat x0) (s_events s)) (s_xbest s) (- s_ebest s);
  ok_cur : (- s_eprev s <= - s_ebest s)%R;
  ok_data : forall k e, nth_error (s_events s) k = Some e ->
    e_new_r e = fit (S k) (e_new e) /\ e_alpha e = d_alpha (D (S k)) /\ temperature c (S k) = Some (e_temp e);
  ok_reports : forall r, In r (s_reports s) ->
    r_step r <= s_step s /\
    first_best (evaluated x0 (fit 0%nat x0) (firstn (r_step r) (s_events s))) (r_x r) (r_best r) /\
    temperature c (r_step r) = Some (r_temp r) }.

Lemma evaluated_snoc : forall x0 r0 evs e,
  evaluated x0 r0 (evs ++ [e]) = evaluated x0 r0 evs ++ [(e_new e, e_new_r e)].
Proof. intros. unfold evaluated. rewrite map_app. reflexivity. Qed.
Lemma first_best_keep : forall l x r y q, first_best l x r -> (q <= r)%R -> first_best (l ++ [(y, q)]) x r.
Proof.
  intros l x r y q (b & a & -> & H1 & H2) Hq. exists b, (a ++ [(y, q)]). rewrite <- app_assoc.
  split; [reflexivity|]. split; [exact H1|].
  intros z p Hz. apply in_app_iff in Hz. destruct Hz as [Hz|[Hz|[]]]; [eauto|]. injection Hz as <- <-. exact Hq.
Qed.
Lemma first_best_new : forall l x r y q, first_best l x r -> (r < q)%R -> first_best (l ++ [(y, q)]) y q.
Proof.
  intros l x r y q (b & a & -> & H1 & H2) Hq. exists (b ++ (x, r) :: a), [].
  split; [reflexivity|]. split; [|intros z p []].
  intros z p Hz. apply in_app_iff in Hz. destruct Hz as [Hz|[Hz|Hz]].
  - specialize (H1 _ _ Hz). lra.
  - injection Hz as <- <-. exact Hq.
  - specialize (H2 _ _ Hz). lra.
Qed.

Lemma chain_step : forall fuel c l fit D x0 s s',
  chain_ok c fit D x0 s -> anneal_step fuel c l fit (D (S (s_step s))) s = Done s' -> chain_ok c fit D x0 s'.
Proof.
  intros fuel c l fit D x0 s s' [P L X E K B Cu DD RR] H. apply step_inv in H.
  destruct H as (T & m & ev & HT & Hm & Hf & E1 & E2 & E3 & Hev & Hc & a & i & _ & _ & Hr).
  assert (Hfrom : e_from ev = s_x s) by (subst ev; reflexivity).
  assert (Hfr : e_from_r ev = (- s_eprev s)%R) by (subst ev; reflexivity).
  assert (Haf : e_after ev = s_x s') by (subst ev; reflexivity).
  assert (Har : e_after_r ev = (- s_eprev s')%R) by (subst ev; reflexivity).
  assert (Hr1 : e_new_r ev = fit (S (s_step s)) (e_new ev)) by (subst ev; reflexivity).
  assert (Ha1 : e_alpha ev = d_alpha (D (S (s_step s)))) by (subst ev; reflexivity).
  assert (Ht1 : e_temp ev = T) by (subst ev; reflexivity).
  clear Hev.
  assert (Hprev : s_xprev s' = s_x s') by (destruct Hc as [Hc|Hc]; specialize (Hc P); intuition congruence).
  assert (Hbest : first_best (evaluated x0 (fit 0%nat x0) (s_events s')) (s_xbest s') (- s_ebest s') /\
                  (- s_eprev s' <= - s_ebest s')%R).
  { rewrite E3, evaluated_snoc. destruct Hc as [Hc|Hc]; specialize (Hc P).
    - destruct Hc as (_ & _ & _ & Hq & [(Q1 & Q2 & Q3)|(Q1 & Q2 & Q3)]).
      + rewrite Q2, Q3. split; [|rewrite Hq; lra]. eapply first_best_new; eauto.
      + rewrite Q2, Q3. split; [|rewrite Hq; lra]. apply first_best_keep; auto.
    - destruct Hc as (_ & _ & _ & Hq & Hlt & Q2 & Q3). rewrite Q2, Q3, Hq. split; [|lra].
      apply first_best_keep; auto. lra. }
  destruct Hbest as (Hbest & Hcur).
  constructor; auto.
  - rewrite E3, E1, app_length. cbn. lia.
  - rewrite E3, map_app. cbn [map]. rewrite last_snoc. congruence.
  - rewrite E3, map_app. cbn [map]. rewrite last_snoc. congruence.
  - rewrite E3. apply linked_app; [exact K|]. cbv zeta. rewrite <- X, <- E.
    split; [exact Hfrom|]. split; [exact Hfr|].
    destruct Hc as [Hc|Hc]; specialize (Hc P); split; intros A; try tauto.
    + split; [intuition congruence|]. rewrite Har. tauto.
    + split; [intuition congruence|]. rewrite Har. destruct Hc as (_ & _ & _ & -> & _). reflexivity.
  - intros k e Hk. rewrite E3 in Hk. destruct (lt_dec k (length (s_events s))) as [Hl|Hl].
    + rewrite nth_error_app1 in Hk by exact Hl. auto.
    + rewrite nth_error_app2 in Hk by lia.
      destruct (k - length (s_events s)) as [|k'] eqn:Ek; cbn in Hk; [|destruct k'; discriminate].
      injection Hk as <-. replace k with (s_step s) by lia. rewrite Ht1. auto.
  - assert (Hold : forall r, In r (s_reports s) -> r_step r <= s_step s' /\
       first_best (evaluated x0 (fit 0%nat x0) (firstn (r_step r) (s_events s'))) (r_x r) (r_best r) /\
       temperature c (r_step r) = Some (r_temp r)).
    { intros r Hin. destruct (RR r Hin) as (A1 & A2 & A3). split; [lia|]. split; [|exact A3].
      rewrite E3, firstn_app. replace (r_step r - length (s_events s)) with 0 by lia.
      cbn [firstn]. rewrite app_nil_r. exact A2. }
    intros r Hin. destruct Hr as [Hr|Hr].
    + destruct Hr as (_ & _ & _ & _ & Hr). rewrite Hr in Hin. apply in_app_iff in Hin.
      destruct Hin as [Hin|[<-|[]]]; [auto|]. cbn [r_step r_x r_best r_temp].
      split; [lia|]. split; [|congruence]. rewrite firstn_all2; [exact Hbest|].
      rewrite E3, app_length. cbn. lia.
    + destruct Hr as (_ & _ & _ & _ & Hr). rewrite Hr in Hin. auto.
Qed.

Lemma chain_start : forall c fit D x0, chain_ok c fit D x0 (start_state c fit x0).
Proof.
  intros c fit D x0. constructor; cbn; try reflexivity; try lra.
  - constructor.
  - exists [], []. cbn. rewrite Ropp_involutive. split; [reflexivity|]. split; intros ? ? [].
  - intros [|k] e Hk; discriminate.
  - intros r [].
Qed.

Lemma build_chain : forall fuel c fit raws D s,
  build fuel c fit raws D = Done s ->
  exists l x0, init_limits c = Done l /\ init_x c l raws = Done x0 /\ chain_ok c fit D x0 s.
Proof.
  intros fuel c fit raws D s H. apply build_inv in H. destruct H as (l & x0 & Hl & Hx & _ & H).
  exists l, x0. split; [exact Hl|]. split; [exact Hx|].
  apply (loop_inv fuel c l fit D (chain_ok c fit D x0)) in H.
  - tauto.
  - intros a b _ Ha Hs. eapply chain_step; eauto.
  - apply chain_start.
Qed.
