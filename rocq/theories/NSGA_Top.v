(** Runs of NSGA in the user's sign. *)
From Coq Require Import List Arith ZArith QArith Bool Lia Lqa Permutation.
From Verif Require Import Base BaseFacts Space_Model Space_Spec Opt_Model Opt_Facts ES_Model ES_Spec ND_Model ND_Spec ND_Proofs NDL_Model NDL_Top NSGA_Model NSGA_Spec NSGA_Proofs.
Import ListNotations.
Open Scope nat_scope.

Lemma as_max_twice m q : as_max m (as_max m q) == q.
Proof. destruct m; simpl; ring. Qed.

Lemma map_twice m v : Forall2 Qeq (map (as_max m) (map (as_max m) v)) v.
Proof. induction v; simpl; constructor; auto. apply as_max_twice. Qed.

Lemma no_worse_iff m u w : no_worse m (map (as_max m) u) (map (as_max m) w) <-> Forall2 Qle w u.
Proof.
  revert w. induction u as [|a u IH]; intros [|b w]; destruct m; simpl in *;
    try (split; intro H; inversion H; fail); try (split; constructor; fail).
  - split; intro H; inversion H; subst; constructor; try (apply IH; auto); lra.
  - split; intro H; inversion H; subst; constructor; try (apply IH; auto); lra.
Qed.

Lemma better_iff m u w : better m (map (as_max m) u) (map (as_max m) w) <-> dominates u w.
Proof.
  unfold better, dominates. rewrite no_worse_iff. split; intros [A (f & x & y & X & Y & L)]; (split; [auto|]).
  - rewrite nth_error_map in X, Y. destruct (nth_error u f) as [a|] eqn:E1; [|discriminate]. destruct (nth_error w f) as [b|] eqn:E2; [|discriminate].
    simpl in X, Y. injection X as <-. injection Y as <-. exists f, a, b. split; [auto|]. split; [auto|]. destruct m; simpl in L; lra.
  - exists f, (as_max m x), (as_max m y). rewrite !nth_error_map, X, Y. split; [auto|]. split; [auto|]. destruct m; simpl; lra.
Qed.

Lemma no_worse_veq m a a' b b' : Forall2 Qeq a a' -> Forall2 Qeq b b' -> no_worse m a b -> no_worse m a' b'.
Proof.
  intros H. revert b b'. induction H as [|x x' a a' E H IH]; intros b b' K; destruct K as [|y y' b b' E' K]; destruct m; simpl; intro N; inversion N; subst; constructor;
    try (apply (IH b b' K)); auto; lra.
Qed.

Lemma Forall2_nth_error {A B} (R : A -> B -> Prop) a b i x : Forall2 R a b -> nth_error a i = Some x -> exists y, nth_error b i = Some y /\ R x y.
Proof. intro H. revert i. induction H; intros [|i] E; simpl in *; try discriminate; [injection E as <-; eauto|eauto]. Qed.

Lemma better_veq m a a' b b' : Forall2 Qeq a a' -> Forall2 Qeq b b' -> better m a b -> better m a' b'.
Proof.
  intros A B [N (f & x & y & X & Y & L)]. split; [eapply no_worse_veq; eauto|].
  destruct (Forall2_nth_error _ _ _ _ _ A X) as (x' & X' & EX). destruct (Forall2_nth_error _ _ _ _ _ B Y) as (y' & Y' & EY).
  exists f, x', y'. split; [auto|]. split; [auto|]. destruct m; lra.
Qed.

Section Top.
Context (expf : Q -> Q) (tau tau' : nat -> Q) (m : mode) (fit : list Q -> list Q) (p : es_par) (alg : nsga_alg) (sort_log : bool).
Context (nobj : nat) (init : list (list Q * list Q)) (H : nsga_ok fit nobj p alg init).
Notation go := (nsga_evolute expf tau tau' m fit p alg sort_log).

Lemma done_inv drs ngen st : go drs init ngen = Done st ->
  pop_inv m fit p st /\ report_inv m fit nobj st /\ length (s_y st) = nobj.
Proof.
  destruct H as (A & B & C & D & E & F & G & I & J & K). intro R.
  eapply (run_done expf tau tau' m fit p alg sort_log nobj); eauto.
Qed.

Lemma valued_eval st i : valued m fit (s_seen st) i -> was_evaluated fit (s_seen st) (q_x i, map (as_max m) (q_v i)).
Proof. intros (x & I & V & E). exists x. split; [auto|]. split; [exact V|]. cbn [snd]. rewrite E. apply map_twice. Qed.

Theorem front_ok drs ngen st : go drs init ngen = Done st ->
  out_front m st <> [] /\
  Forall (was_evaluated fit (s_seen st)) (out_front m st) /\
  Forall (fun xv => feasible (p_dims p) (fst xv)) (out_front m st) /\
  Forall (feasible (p_dims p)) (s_seen st) /\
  (forall a b, In a (out_front m st) -> In b (out_front m st) -> ~ better m (snd a) (snd b)).
Proof.
  intro R. destruct (done_inv _ _ _ R) as ((L & IO & V & SF & C) & (NE & IN & ND & DO & LX & OX & OY) & LY).
  rewrite Forall_forall in IO, V. destruct H as (_ & _ & _ & _ & _ & M & _).
  split. { unfold out_front. destruct (s_front st); [congruence|discriminate]. }
  split. { apply Forall_forall. intros xv I. apply in_map_iff in I. destruct I as (i & <- & I). apply valued_eval. apply V. apply IN. auto. }
  split. { apply Forall_forall. intros xv I. apply in_map_iff in I. destruct I as (i & <- & I). cbn [fst]. destruct (IO i (IN _ I)) as (F & _). exact F. }
  split; [auto|].
  intros a b Ia Ib B. apply in_map_iff in Ia. destruct Ia as (i & <- & Ii). apply in_map_iff in Ib. destruct Ib as (j & <- & Ij).
  cbn [snd] in B. apply better_iff in B. exact (ND j i Ij (IN _ Ii) B).
Qed.

Theorem front_complete drs ngen st : go drs init ngen = Done st -> s_cut st = false ->
  (forall x xv, In x (s_seen st) -> In xv (out_front m st) -> ~ better m (fit x) (snd xv)) /\
  (forall x, In x (s_seen st) -> exists xv, In xv (out_front m st) /\ no_worse m (snd xv) (fit x)).
Proof.
  intros R NC. destruct (done_inv _ _ _ R) as ((L & IO & V & SF & C) & (NE & IN & ND & DO & LX & OX & OY) & LY).
  specialize (C NC).
  assert (K : forall x, In x (s_seen st) -> exists i, In i (s_front st) /\ Forall2 Qle (reward m fit x) (q_v i)).
  { intros x I. destruct (C x I) as (j & Ij & Lj). destruct (DO j Ij) as (i & Ii & Li). exists i. split; [auto|]. eapply Forall2_le_trans; eauto. }
  split.
  - intros x xv I Ixv B. apply in_map_iff in Ixv. destruct Ixv as (j & <- & Ij). cbn [snd] in B.
    destruct (C x I) as (i & Ii & Li).
    assert (B' : better m (map (as_max m) (reward m fit x)) (map (as_max m) (q_v j))).
    { eapply better_veq; [| |exact B]. { unfold reward. clear. induction (fit x); simpl; constructor; auto. symmetry. apply as_max_twice. }
      clear. induction (q_v j); constructor; auto. reflexivity. }
    apply better_iff in B'. apply (ND j i Ij Ii). destruct B' as [W (f & a & b & EA & EB & LT)]. split; [eapply Forall2_le_trans; eauto|].
    destruct (Forall2_nth_error _ _ _ _ _ Li EA) as (c & EC & LC). exists f, c, b. split; [auto|]. split; [auto|]. eapply Qlt_le_trans; eauto.
  - intros x I. destruct (K x I) as (i & Ii & Li). exists (q_x i, map (as_max m) (q_v i)). split; [apply in_map_iff; exists i; auto|].
    cbn [snd]. eapply no_worse_veq with (a := map (as_max m) (q_v i)) (b := map (as_max m) (reward m fit x)).
    + clear. induction (q_v i); constructor; auto. reflexivity.
    + apply map_twice.
    + apply no_worse_iff. exact Li.
Qed.

Theorem report_user drs ngen st : go drs init ngen = Done st ->
  length (out_x st) = nobj /\ length (out_y m st) = nobj /\
  (forall f x, nth_error (out_x st) f = Some x -> exists v, In (x, v) (out_front m st) /\
     forall x' v', In (x', v') (out_front m st) -> (as_max m (nth f v 0) <= as_max m (nth f v' 0))%Q) /\
  (forall f y, nth_error (out_y m st) f = Some y -> exists x, In x (s_seen st) /\ (y == nth f (fit x) 0)%Q).
Proof.
  intro R. destruct (done_inv _ _ _ R) as ((L & IO & V & SF & C) & (NE & IN & ND & DO & LX & OX & OY) & LY).
  split; [exact LX|]. split; [unfold out_y; rewrite map_length; exact LY|].
  assert (nobj_lt : forall f i, In i (s_front st) -> f < nobj -> nth f (map (as_max m) (q_v i)) 0%Q = as_max m (nth f (q_v i) 0%Q)).
  { intros f i I Lf. rewrite nth_indep with (d' := as_max m 0%Q); [apply map_nth|]. rewrite map_length.
    rewrite (valued_length m fit nobj (proj1 (proj2 (proj2 (proj2 (proj2 H))))) (s_seen st) i); auto. rewrite Forall_forall in V. apply V. apply IN. auto. }
  split.
  - unfold out_x. intros f x E. destruct (OX f x E) as (i & Ii & -> & Lo). assert (Lf : f < nobj) by (rewrite <- LX; apply nth_error_Some; congruence).
    exists (map (as_max m) (q_v i)). split; [apply in_map_iff; exists i; auto|].
    intros x' v' I. apply in_map_iff in I. destruct I as (j & EE & Ij). injection EE as <- <-.
    rewrite !nobj_lt by auto. rewrite !as_max_twice. auto.
  - intros f y E. unfold out_y in E. rewrite nth_error_map in E. destruct (nth_error (s_y st) f) as [o|] eqn:Eo; [|discriminate].
    simpl in E. injection E as <-. destruct (OY f o Eo) as (y & -> & x & I & ->). exists x. split; [auto|].
    assert (Lf : f < nobj) by (rewrite <- LY; apply nth_error_Some; congruence).
    unfold reward. rewrite nth_indep with (d' := as_max m 0%Q).
    + rewrite map_nth. apply as_max_twice.
    + rewrite map_length. destruct H as (_ & _ & _ & _ & E & _). rewrite E. auto.
Qed.

Theorem total_run drs ngen : (forall q, 0 < expf q)%Q -> (0 < p_smin p)%Q -> (p_smax p <= 1)%Q ->
  (p_blend p = true \/ 2 <= length (p_dims p)) -> 1 <= ngen ->
  exists st, go drs init ngen = Done st.
Proof.
  destruct H as (A & B & C & D & E & F & G & I & J & K). intros.
  eapply (run_total expf tau tau' m fit p alg sort_log nobj); eauto.
Qed.
End Top.
