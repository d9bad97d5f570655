From Coq Require Import Ascii String List Arith ZArith QArith Bool Lia Lqa.
Import ListNotations.
Require Import Verif.IP_Model Verif.RN_Model Verif.RN_Spec.
Open Scope list_scope. Open Scope nat_scope.

Fixpoint trains_in (evs : list event) : nat := match evs with [] => 0 | Train :: r => S (trains_in r) | Tick _ :: r => trains_in r end.
Lemma trains_app a b : trains_in (a ++ b) = trains_in a + trains_in b.
Proof. induction a as [|[t|] r IH]; cbn; [reflexivity| exact IH | rewrite IH; reflexivity]. Qed.
Lemma times_app a b : times (a ++ b) = times a ++ times b.
Proof. induction a as [|[t|] r IH]; cbn; [reflexivity| rewrite IH; reflexivity| exact IH]. Qed.

Lemma runcall_rounds c s y p : rounds (fst (runcall c s y p)) = rounds s.
Proof. unfold runcall. destruct y; [|reflexivity]. cbn. destruct (better _ _); reflexivity. Qed.
Lemma runcall_last c s y p : last_file (fst (runcall c s y p)) = match y with None => last_file s | Some _ => Some (rounds s) end.
Proof. unfold runcall. destruct y; [|reflexivity]. cbn. destruct (better _ _); reflexivity. Qed.

(** The loop with no step at the total goes through. *)
Lemma loop_through c w evs s : ~ In (total_timesteps c) (times evs) -> exists s', loop c w evs s = Goes s' /\ rounds s' = rounds s + trains_in evs.
Proof.
  revert s. induction evs as [|[t|] r IH]; intros s H.
  - exists s. split; [reflexivity|cbn; lia].
  - cbn [times] in H. cbn [loop trains_in]. unfold on_step.
    destruct (t =? total_timesteps c) eqn:E; [apply Nat.eqb_eq in E; exfalso; apply H; left; exact E|].
    destruct (IH (if due c t then fst (runcall c s (csv_at w t) (plot_at w t)) else s)) as [s' [A B]]; [intro; apply H; right; assumption|].
    exists s'. split; [exact A|]. rewrite B. destruct (due c t); [rewrite runcall_rounds|]; reflexivity.
  - cbn [loop trains_in]. destruct (IH (St (S (rounds s)) (best_mean s) (best_file s) (last_file s))) as [s' [A B]]; [exact H|].
    exists s'. split; [exact A|]. rewrite B. cbn. lia.
Qed.
Lemma loop_stops c w a b s : ~ In (total_timesteps c) (times a) ->
  exists s0, rounds s0 = rounds s + trains_in a /\ loop c w (a ++ Tick (total_timesteps c) :: b) s =
    Exits (if due c (total_timesteps c) then fst (runcall c s0 (csv_at w (total_timesteps c)) (plot_at w (total_timesteps c))) else s0) 1.
Proof.
  revert s. induction a as [|[t|] r IH]; intros s H.
  - exists s. split; [cbn; lia|]. cbn [app loop]. unfold on_step. rewrite Nat.eqb_refl. reflexivity.
  - cbn [times] in H. cbn [app loop trains_in]. unfold on_step at 1.
    destruct (t =? total_timesteps c) eqn:E; [apply Nat.eqb_eq in E; exfalso; apply H; left; exact E|].
    destruct (IH (if due c t then fst (runcall c s (csv_at w t) (plot_at w t)) else s)) as [s0 [A B]]; [intro; apply H; right; assumption|].
    exists s0. split; [|exact B]. rewrite A. destruct (due c t); [rewrite runcall_rounds|]; reflexivity.
  - cbn [app loop trains_in]. destruct (IH (St (S (rounds s)) (best_mean s) (best_file s) (last_file s)) H) as [s0 [A B]].
    exists s0. split; [|exact B]. rewrite A. cbn. lia.
Qed.
Lemma times_split t evs : In t (times evs) -> exists a b, evs = a ++ Tick t :: b /\ ~ In t (times a).
Proof.
  induction evs as [|[u|] r IH]; intros H; [destruct H| |].
  - cbn [times] in H. destruct (Nat.eq_dec u t) as [->|N].
    + exists [], r. split; [reflexivity|intros []].
    + destruct H as [->|H]; [contradiction|]. destruct (IH H) as [a [b [-> B]]]. exists (Tick u :: a), b. split; [reflexivity|]. cbn. intros [X|X]; [contradiction|contradiction].
  - destruct (IH H) as [a [b [-> B]]]. exists (Train :: a), b. split; [reflexivity|exact B].
Qed.

(** Every learn ends the process with status 1. *)
Lemma learn_exits c w evs s : exists s', learn c w evs s = Exits s' 1.
Proof.
  unfold learn. destruct (in_dec Nat.eq_dec (total_timesteps c) (times evs)) as [H|H].
  - destruct (times_split _ _ H) as [a [b [-> B]]]. destruct (loop_stops c w a b s B) as [s0 [_ E]]. rewrite E. eexists; reflexivity.
  - destruct (loop_through c w evs s H) as [s' [E _]]. rewrite E. eexists; reflexivity.
Qed.
Lemma in_files f v s : In (f, v) (files_of s) <-> match f with LastModel => last_file s = Some v | BestModel => best_file s = Some v | ModelLast => False end.
Proof.
  unfold files_of, put. destruct (last_file s) as [x|], (best_file s) as [y|], f; cbn; split; intros H;
    repeat match goal with H : _ \/ _ |- _ => destruct H as [H|H] end; try (injection H as ->); try discriminate; try contradiction; try congruence; auto.
Qed.
Theorem always_exits a m c w n_envs n_steps trains : snd (train a m c w n_envs n_steps trains) = 1 /\ absent ModelLast (fst (train a m c w n_envs n_steps trains)).
Proof.
  unfold train. destruct (learn_exits c w (learn_events a n_envs n_steps trains (total_timesteps c)) st0) as [s' E]. rewrite E. cbn [fst snd]. split; [reflexivity|].
  intros v H. apply in_files in H. exact H.
Qed.

(** ** The times of the loops *)
Lemma times_ticks e k t : times (ticks e k t) = map (fun i => t + i * e) (seq 1 k).
Proof.
  revert t. induction k as [|k IH]; intros t; [reflexivity|]. cbn [ticks times]. rewrite IH. cbn [seq map]. f_equal; [lia|].
  rewrite <- (seq_shift k 1), map_map. apply map_ext. intros i. cbn. lia.
Qed.
Lemma trains_ticks e k t : trains_in (ticks e k t) = 0.
Proof. revert t. induction k; intros t; cbn; auto. Qed.
Lemma trains_rollouts e n r t : trains_in (rollouts e n r t) = r.
Proof. revert t. induction r as [|r IH]; intros t; cbn [rollouts]; [reflexivity|]. rewrite !trains_app, trains_ticks. cbn. rewrite IH. reflexivity. Qed.
Lemma rollouts_split e n r q t : q <= r -> rollouts e n r t = rollouts e n q t ++ rollouts e n (r - q) (t + q * (n * e)).
Proof.
  revert r t. induction q as [|q IH]; intros r t H.
  - cbn. rewrite Nat.sub_0_r, Nat.add_0_r. reflexivity.
  - destruct r as [|r]; [lia|]. cbn [rollouts]. rewrite (IH r (t + n * e)) by lia. cbn [Nat.sub]. rewrite <- !app_assoc. do 3 f_equal. f_equal. cbn. lia.
Qed.
Lemma in_rollouts e n r t x : In x (times (rollouts e n r t)) -> exists i, 1 <= i <= r * n /\ x = t + i * e.
Proof.
  revert t. induction r as [|r IH]; intros t H; [destruct H|]. cbn [rollouts] in H. rewrite !times_app, times_ticks in H. cbn [times app] in H.
  apply in_app_or in H. destruct H as [H|H].
  - apply in_map_iff in H. destruct H as [i [<- H]]. apply in_seq in H. exists i. split; [nia|reflexivity].
  - destruct (IH _ H) as [i [A B]]. exists (n + i). split; [nia|]. rewrite B. nia.
Qed.
Lemma ticks_split e k t j : 1 <= j <= k -> ticks e k t = ticks e (j - 1) t ++ Tick (t + j * e) :: ticks e (k - j) (t + j * e).
Proof.
  revert k t. induction j as [|j IH]; intros k t H; [lia|]. destruct k as [|k]; [lia|]. cbn [ticks]. destruct j as [|j].
  - cbn. rewrite Nat.sub_0_r, Nat.add_0_r. reflexivity.
  - rewrite (IH k (t + e)) by lia. replace (S (S j) - 1) with (S (S j - 1)) by lia. cbn [ticks app]. f_equal. f_equal.
    cbn [Nat.sub]. replace (t + e + S j * e) with (t + S (S j) * e) by lia. reflexivity.
Qed.
(** The step number i of a run over rollouts: before it (i-1)/n_steps rollouts are complete. *)
Lemma rollouts_at e n r i : 1 <= e -> 1 <= i <= r * n -> exists a b, rollouts e n r 0 = a ++ Tick (i * e) :: b /\ trains_in a = (i - 1) / n /\ ~ In (i * e) (times a).
Proof.
  intros He Hi. assert (Hn : n <> 0) by nia. pose proof (Nat.div_mod_eq (i - 1) n) as D. pose proof (Nat.mod_upper_bound (i - 1) n Hn) as U.
  set (q := (i - 1) / n) in *. set (m := (i - 1) mod n) in *. assert (Q : q < r) by nia.
  rewrite (rollouts_split e n r q 0) by lia. replace (r - q) with (S (r - q - 1)) by lia. cbn [rollouts].
  rewrite (ticks_split e n (0 + q * (n * e)) (S m)) by lia.
  replace (0 + q * (n * e) + S m * e) with (i * e) by nia.
  exists (rollouts e n q 0 ++ ticks e (S m - 1) (0 + q * (n * e))). eexists. split; [rewrite <- !app_assoc; cbn [app]; reflexivity|].
  split; [rewrite trains_app, trains_rollouts, trains_ticks; lia|].
  rewrite times_app, times_ticks. intros H. apply in_app_or in H. destruct H as [H|H].
  - apply in_rollouts in H. destruct H as [j [A B]]. nia.
  - apply in_map_iff in H. destruct H as [j [B A]]. apply in_seq in A. nia.
Qed.

(** ** The model in the files when the process ends *)
Lemma due_total c : due c (total_timesteps c) = negb (check_freq c =? 0).
Proof. unfold due. destruct (check_freq c =? 0); [reflexivity|]. rewrite Nat.eqb_refl, orb_true_r. reflexivity. Qed.
Lemma learn_hit c w a b : ~ In (total_timesteps c) (times a) -> check_freq c <> 0 -> csv_at w (total_timesteps c) <> None ->
  exists s, learn c w (a ++ Tick (total_timesteps c) :: b) st0 = Exits s 1 /\ last_file s = Some (trains_in a).
Proof.
  intros N F Y. unfold learn. destruct (loop_stops c w a b st0 N) as [s0 [A B]]. rewrite B. eexists. split; [reflexivity|].
  rewrite due_total. destruct (check_freq c =? 0) eqn:E; [apply Nat.eqb_eq in E; contradiction|]. cbn [negb]. rewrite runcall_last.
  destruct (csv_at w (total_timesteps c)); [|contradiction]. rewrite A. reflexivity.
Qed.
Lemma learn_miss c w evs : ~ In (total_timesteps c) (times evs) -> csv_end w <> None ->
  exists s, learn c w evs st0 = Exits s 1 /\ last_file s = Some (trains_in evs).
Proof.
  intros N Y. unfold learn. destruct (loop_through c w evs st0 N) as [s0 [A B]]. rewrite A. unfold on_end. eexists. split; [reflexivity|].
  rewrite runcall_last. destruct (csv_end w); [|contradiction]. rewrite B. reflexivity.
Qed.
Lemma train_last a m c w ne ns tr s v : learn c w (learn_events a ne ns tr (total_timesteps c)) st0 = Exits s 1 -> last_file s = Some v -> holds LastModel v (fst (train a m c w ne ns tr)).
Proof. intros E L. unfold train. rewrite E. cbn [fst]. unfold holds. apply in_files. exact L. Qed.


Theorem on_policy_rounds a m c w n_envs n_steps trains : a = A2C \/ a = PPO -> 1 <= n_envs -> 1 <= n_steps -> readable c w -> 1 <= total_timesteps c ->
  holds LastModel (rollout_rounds (n_envs * n_steps) (total_timesteps c)) (fst (train a m c w n_envs n_steps trains)).
Proof.
  intros Ha He Hs [F [Y Z]] HT. set (T := total_timesteps c) in *. set (nb := n_envs * n_steps). assert (NB : nb <> 0) by (unfold nb; nia).
  assert (EV : learn_events a n_envs n_steps trains T = rollouts n_envs n_steps (T / nb) 0) by (destruct Ha as [->| ->]; reflexivity).
  unfold rollout_rounds. destruct (T mod nb =? 0) eqn:E.
  - apply Nat.eqb_eq in E. pose proof (Nat.div_mod_eq T nb) as D. set (r := T / nb) in *.
    assert (R : 1 <= r) by (destruct r; nia).
    destruct (rollouts_at n_envs n_steps r (r * n_steps) He ltac:(nia)) as [x [y [A [B C]]]].
    assert (TT : r * n_steps * n_envs = T) by (assert (r * n_steps * n_envs = nb * r) by (unfold nb; ring); lia). rewrite TT in *.
    destruct (learn_hit c w x y C F Y) as [s [L1 L2]]. apply (train_last _ _ _ _ _ _ _ s); [fold T; rewrite EV, A; exact L1|].
    rewrite L2, B. f_equal. assert (r * n_steps - 1 = (r - 1) * n_steps + (n_steps - 1)) by nia. rewrite H, Nat.div_add_l by lia. rewrite (Nat.div_small (n_steps - 1)) by lia. lia.
  - apply Nat.eqb_neq in E. pose proof (Nat.div_mod_eq T nb) as D. set (r := T / nb) in *.
    destruct (learn_miss c w (rollouts n_envs n_steps r 0)) as [s [L1 L2]].
    + intros H. apply in_rollouts in H. destruct H as [i [A B]]. fold T in B. assert (i * n_envs <= r * n_steps * n_envs) by (apply Nat.mul_le_mono_r; lia). assert (r * n_steps * n_envs = nb * r) by (unfold nb; ring). lia.
    + exact Z.
    + apply (train_last _ _ _ _ _ _ _ s); [fold T; rewrite EV; exact L1|]. rewrite L2, trains_rollouts. reflexivity.
Qed.
Theorem acer_rounds m c w n_envs n_steps trains : 1 <= n_envs -> 1 <= n_steps -> readable c w -> 1 <= total_timesteps c ->
  holds LastModel (if total_timesteps c mod n_envs =? 0 then (total_timesteps c - 1) / (n_envs * n_steps) else (total_timesteps c - 1) / (n_envs * n_steps) + 1) (fst (train ACER m c w n_envs n_steps trains)).
Proof.
  intros He Hs [F [Y Z]] HT. set (T := total_timesteps c) in *. set (nb := n_envs * n_steps). assert (NB : nb <> 0) by (unfold nb; nia).
  assert (CE : (T + nb - 1) / nb = (T - 1) / nb + 1) by (replace (T + nb - 1) with (1 * nb + (T - 1)) by lia; rewrite Nat.div_add_l by exact NB; lia).
  assert (EV : learn_events ACER n_envs n_steps trains T = rollouts n_envs n_steps ((T - 1) / nb + 1) 0) by (cbn; fold nb; rewrite CE; reflexivity).
  pose proof (Nat.div_mod_eq (T - 1) nb) as D. pose proof (Nat.mod_upper_bound (T - 1) nb NB) as U. set (r := (T - 1) / nb) in *.
  destruct (T mod n_envs =? 0) eqn:E.
  - apply Nat.eqb_eq in E. pose proof (Nat.div_mod_eq T n_envs) as D2. set (i := T / n_envs) in *.
    assert (I : 1 <= i <= (r + 1) * n_steps) by (unfold nb in *; nia).
    destruct (rollouts_at n_envs n_steps (r + 1) i He I) as [x [y [A [B C]]]].
    assert (TT : i * n_envs = T) by lia. rewrite TT in *.
    destruct (learn_hit c w x y C F Y) as [s [L1 L2]]. apply (train_last _ _ _ _ _ _ _ s); [fold T; rewrite EV, A; exact L1|].
    rewrite L2, B. f_equal. symmetry. apply (Nat.div_unique (i - 1) n_steps r (i - 1 - r * n_steps)); unfold nb in *; nia.
  - apply Nat.eqb_neq in E. destruct (learn_miss c w (rollouts n_envs n_steps (r + 1) 0)) as [s [L1 L2]].
    + intros H. apply in_rollouts in H. destruct H as [i [A B]]. fold T in B. apply E. rewrite B. cbn. apply Nat.mod_mul. lia.
    + exact Z.
    + apply (train_last _ _ _ _ _ _ _ s); [fold T; rewrite EV; exact L1|]. rewrite L2, trains_rollouts. reflexivity.
Qed.
Lemma times_dqn tr k t : times (dqn_steps tr k t) = seq (S t) k.
Proof. revert t. induction k as [|k IH]; intros t; [reflexivity|]. cbn [dqn_steps times seq]. f_equal. rewrite times_app, IH. destruct (tr (S t)); reflexivity. Qed.
Lemma trains_dqn tr k t : trains_in (dqn_steps tr k t) = List.length (filter tr (seq (S t) k)).
Proof. revert t. induction k as [|k IH]; intros t; [reflexivity|]. cbn [dqn_steps trains_in seq filter]. rewrite trains_app, IH. destruct (tr (S t)); reflexivity. Qed.
Lemma dqn_split tr k t : dqn_steps tr (k + 1) t = dqn_steps tr k t ++ Tick (t + k + 1) :: (if tr (t + k + 1) then [Train] else []).
Proof.
  revert t. induction k as [|k IH]; intros t.
  - cbn. replace (t + 0 + 1) with (S t) by lia. rewrite app_nil_r. reflexivity.
  - cbn [Nat.add dqn_steps]. rewrite IH. cbn [app]. rewrite <- app_assoc. replace (S t + k + 1) with (t + S k + 1) by lia. reflexivity.
Qed.
Theorem dqn_rounds m c w n_envs n_steps trains : readable c w -> 1 <= total_timesteps c ->
  holds LastModel (List.length (filter trains (seq 1 (total_timesteps c - 1)))) (fst (train DQN m c w n_envs n_steps trains)).
Proof.
  intros [F [Y Z]] HT. set (T := total_timesteps c) in *.
  assert (EV : learn_events DQN n_envs n_steps trains T = dqn_steps trains (T - 1) 0 ++ Tick T :: (if trains T then [Train] else [])).
  { cbn [learn_events]. replace T with (T - 1 + 1) at 1 by lia. rewrite dqn_split. replace (0 + (T - 1) + 1) with T by lia. reflexivity. }
  destruct (learn_hit c w (dqn_steps trains (T - 1) 0) (if trains T then [Train] else [])) as [s [L1 L2]]; auto.
  { rewrite times_dqn. intros H. apply in_seq in H. fold T in H. lia. }
  apply (train_last _ _ _ _ _ _ _ s); [fold T; rewrite EV; exact L1|]. rewrite L2, trains_dqn. reflexivity.
Qed.

(** ** The best file *)
Definition holds_best (l : list (Q * nat)) (s : st) : Prop :=
  match best_mean s, best_file s with
  | Some m, Some v => exists a b, l = a ++ (m, v) :: b /\ (forall x, In x a -> fst x < m)%Q /\ (forall x, In x b -> fst x <= m)%Q
  | None, None => l = []
  | _, _ => False
  end.
Definition seen (c : cb) (k : nat) (y : option (list Q)) : list (Q * nat) :=
  match y with Some ((_ :: _) as l) => match tail_mean (avg_step c) l with Some q => [(q, k)] | None => [] end | _ => [] end.
Lemma runcall_best c s y p l : holds_best l s -> holds_best (l ++ seen c (rounds s) y) (fst (runcall c s y p)).
Proof.
  intros H. unfold runcall, seen. destruct y as [y|]; [|cbn; rewrite app_nil_r; exact H]. destruct y as [|q y].
  - cbn. rewrite app_nil_r. exact H.
  - set (m := tail_mean (avg_step c) (q :: y)). assert (M : exists x, m = Some x) by (eexists; reflexivity). destruct M as [x M]. rewrite M.
    unfold better. unfold holds_best in *. destruct (best_mean s) as [b|] eqn:B.
    + destruct (best_file s) as [f|] eqn:Ff; [|contradiction]. destruct H as [a1 [b1 [E [H1 H2]]]]. destruct (Qle_bool x b) eqn:L; cbn [negb fst best_mean best_file].
      * rewrite B, Ff. apply Qle_bool_iff in L. exists a1, (b1 ++ [(x, rounds s)]). rewrite E, <- app_assoc. split; [reflexivity|]. split; [exact H1|].
        intros z Z. apply in_app_or in Z. destruct Z as [Z|[<-|[]]]; [apply H2; exact Z|exact L].
      * assert (L' : (b < x)%Q). { apply Qnot_le_lt. intro C. apply Qle_bool_iff in C. congruence. }
        exists l, []. split; [reflexivity|]. split; [|intros z []]. intros z Z. rewrite E in Z. apply in_app_or in Z. destruct Z as [Z|[<-|Z]]; [specialize (H1 z Z); lra|exact L'|specialize (H2 z Z); lra].
    + destruct (best_file s) as [f|] eqn:Ff; [contradiction|]. subst l. cbn. exists [], []. split; [reflexivity|]. split; intros z [].
Qed.
Lemma learn_best c w evs : forall s l s', holds_best l s -> learn c w evs s = Exits s' 1 -> holds_best (l ++ readings c w evs (rounds s)) s'.
Proof.
  induction evs as [|[t|] r IH]; intros s l s' H E.
  - unfold learn in E. cbn [loop] in E. unfold on_end in E. injection E as <-. cbn [readings]. apply runcall_best. exact H.
  - unfold learn in E. cbn [loop] in E. unfold on_step in E. cbn [readings]. fold (seen c (rounds s) (csv_at w t)).
    assert (K : holds_best (l ++ (if due c t then seen c (rounds s) (csv_at w t) else [])) (if due c t then fst (runcall c s (csv_at w t) (plot_at w t)) else s)).
    { destruct (due c t); [apply runcall_best; exact H|rewrite app_nil_r; exact H]. }
    rewrite app_assoc. destruct (t =? total_timesteps c).
    + injection E as <-. rewrite app_nil_r. exact K.
    + pose proof (IH _ _ _ K E) as G. replace (rounds (if due c t then fst (runcall c s (csv_at w t) (plot_at w t)) else s)) with (rounds s) in G by (destruct (due c t); [rewrite runcall_rounds|]; reflexivity). exact G.
  - unfold learn in E. cbn [loop] in E. cbn [readings]. exact (IH (St (S (rounds s)) (best_mean s) (best_file s) (last_file s)) l s' H E).
Qed.
Lemma first_largest_unique l v v' : first_largest l v -> first_largest l v' -> v = v'.
Proof.
  intros [a [m [b [E [H1 H2]]]]] [a' [m' [b' [E' [H1' H2']]]]]. rewrite E in E'. clear E.
  revert a' E' H1'. induction a as [|x a IH]; intros a' E' H1'.
  - destruct a' as [|x' a']; cbn in E'; [congruence|]. injection E' as A B. exfalso. subst x' b.
    specialize (H1' (m, v) (or_introl eq_refl)). specialize (H2 (m', v') ltac:(apply in_or_app; right; left; reflexivity)). cbn in *. lra.
  - destruct a' as [|x' a']; cbn in E'.
    + injection E' as A B. exfalso. subst x b'. specialize (H1 (m', v') (or_introl eq_refl)). specialize (H2' (m, v) ltac:(apply in_or_app; right; left; reflexivity)). cbn in *. lra.
    + injection E' as -> E'. apply (IH (fun z Z => H1 z (or_intror Z)) a' E' (fun z Z => H1' z (or_intror Z))).
Qed.
Theorem best_model a m c w n_envs n_steps trains v :
  holds BestModel v (fst (train a m c w n_envs n_steps trains)) <-> first_largest (readings c w (learn_events a n_envs n_steps trains (total_timesteps c)) 0) v.
Proof.
  unfold train. set (evs := learn_events a n_envs n_steps trains (total_timesteps c)). destruct (learn_exits c w evs st0) as [s' E]. rewrite E. cbn [fst].
  assert (B : holds_best ([] ++ readings c w evs (rounds st0)) s') by (apply (learn_best c w evs st0 [] s'); [reflexivity|exact E]). cbn [app] in B. change (rounds st0) with 0 in B.
  unfold holds. rewrite in_files. unfold holds_best in B. destruct (best_mean s') as [x|], (best_file s') as [f|]; try contradiction.
  - destruct B as [p [q [P [P1 P2]]]]. assert (G : first_largest (readings c w evs 0) f) by (exists p, x, q; auto). split.
    + intros K. injection K as <-. exact G.
    + intros K. f_equal. exact (first_largest_unique _ _ _ G K).
  - rewrite B. split; [discriminate|]. intros [p [x [q [P _]]]]. destruct p; discriminate.
Qed.
(** Nothing is written when no check can read the file. *)
Lemma loop_none c w evs : forall s, (forall t, csv_at w t = None \/ check_freq c = 0) -> forall s' , loop c w evs s = Goes s' \/ loop c w evs s = Exits s' 1 -> best_file s' = best_file s /\ last_file s' = last_file s /\ best_mean s' = best_mean s.
Proof.
  induction evs as [|[t|] r IH]; intros s N s' H.
  - cbn in H. destruct H as [H|H]; [injection H as <-; auto|discriminate].
  - cbn [loop] in H. unfold on_step in H.
    assert (K : (if due c t then fst (runcall c s (csv_at w t) (plot_at w t)) else s) = s).
    { unfold due. destruct (check_freq c =? 0) eqn:Z; [reflexivity|]. destruct (N t) as [X|X]; [rewrite X; cbn; destruct (_ || _); reflexivity|rewrite X in Z; discriminate]. }
    rewrite K in H. destruct (t =? total_timesteps c).
    + destruct H as [H|H]; [discriminate|]. injection H as <-. auto.
    + exact (IH s N s' H).
  - cbn [loop] in H. exact (IH _ N s' H).
Qed.
Theorem zero_freq a m c w n_envs n_steps trains : check_freq c = 0 -> In (total_timesteps c) (times (learn_events a n_envs n_steps trains (total_timesteps c))) ->
  train a m c w n_envs n_steps trains = ([], 1).
Proof.
  intros F H. unfold train. set (evs := learn_events a n_envs n_steps trains (total_timesteps c)) in *. destruct (times_split _ _ H) as [x [y [E N]]].
  unfold learn. destruct (loop_stops c w x y st0 N) as [s0 [A B]]. rewrite <- E in B. rewrite B. rewrite due_total, F. cbn [Nat.eqb negb].
  assert (K := loop_none c w evs st0 (fun t => or_intror F) s0). rewrite B, due_total, F in K. cbn [Nat.eqb negb] in K. destruct (K (or_intror eq_refl)) as [K1 [K2 K3]].
  unfold files_of. rewrite K1, K2. reflexivity.
Qed.
(** When checks happen: every step at a multiple of the frequency, and the total. *)
Theorem checks c t : check_freq c <> 0 -> (due c t = true <-> Nat.divide (check_freq c) t \/ t = total_timesteps c).
Proof.
  intros F. unfold due. destruct (check_freq c =? 0) eqn:E; [apply Nat.eqb_eq in E; contradiction|]. rewrite orb_true_iff, Nat.eqb_eq, Nat.eqb_eq, Nat.mod_divide by exact F. reflexivity.
Qed.
Theorem mean_last n y : y <> [] -> 1 <= n -> tail_mean n y = Some (mean_of (skipn (List.length y - n) y)).
Proof. intros Y N. unfold tail_mean. destruct y as [|a y]; [contradiction|]. destruct (n =? 0) eqn:E; [apply Nat.eqb_eq in E; lia|]. reflexivity. Qed.
Theorem mean_zero y : y <> [] -> tail_mean 0 y = Some (mean_of y).
Proof. intros Y. unfold tail_mean. destruct y as [|a y]; [contradiction|]. reflexivity. Qed.
Theorem step_times a n_envs n_steps trains total t : 1 <= n_envs -> 1 <= n_steps -> a <> DQN -> (In t (times (learn_events a n_envs n_steps trains total)) <-> exists i, 1 <= i /\ t = i * n_envs /\
  i * n_envs <= (match a with ACER => (total + n_envs * n_steps - 1) / (n_envs * n_steps) | _ => total / (n_envs * n_steps) end) * (n_envs * n_steps)).
Proof.
  intros He Hs Ha.
  assert (G : forall r, In t (times (rollouts n_envs n_steps r 0)) <-> exists i, 1 <= i /\ t = i * n_envs /\ i * n_envs <= r * (n_envs * n_steps)).
  { intros r. split.
    - intros H. apply in_rollouts in H. destruct H as [i [A B]]. exists i. split; [lia|]. split; [lia|nia].
    - intros [i [A [B C]]]. destruct (rollouts_at n_envs n_steps r i He ltac:(nia)) as [x [y [E _]]]. rewrite E, times_app. apply in_or_app. right. left. symmetry. exact B. }
  destruct a; [contradiction| | |]; apply G.
Qed.

(** ** The cards *)
Lemma teqb_eq a b : teqb a b = true <-> a = b.
Proof. unfold teqb. destruct (list_eq_dec _ a b); split; intros; auto; discriminate. Qed.
Lemma dget_in {V} k (d : list (text * V)) : In k (map fst d) <-> exists v, dget k d = Some v.
Proof.
  unfold dget. split.
  - intros H. destruct (find (fun x => teqb k (fst x)) d) as [x|] eqn:E; [eexists; reflexivity|]. exfalso. apply in_map_iff in H. destruct H as [x [A B]].
    pose proof (find_none _ _ E x B) as N. cbn in N. assert (teqb k (fst x) = true) by (apply teqb_eq; auto). congruence.
  - intros [v H]. destruct (find (fun x => teqb k (fst x)) d) as [x|] eqn:E; [|discriminate]. apply find_some in E. destruct E as [A B]. apply teqb_eq in B. subst k. apply in_map. exact A.
Qed.
Lemma arguments_ok {V} l (card : list (text * V)) : (forall x, In x l -> In (snd x) (map fst card)) -> exists d, arguments l card = Some d /\ map fst d = map fst l /\
  Forall2 (fun x y => fst x = fst y /\ dget (snd x) card = Some (snd y)) l d.
Proof.
  induction l as [|[a n] r IH]; intros H; [exists []; auto|]. destruct IH as [d [A [B C]]]; [intros; apply H; right; assumption|].
  destruct (proj1 (dget_in n card) (H (a, n) (or_introl eq_refl))) as [v E]. exists ((a, v) :: d). cbn [arguments]. rewrite E, A. cbn. rewrite B. auto.
Qed.
Lemma arguments_none {V} l (card : list (text * V)) n a : In (a, n) l -> ~ In n (map fst card) -> arguments l card = None.
Proof.
  induction l as [|[a' n'] r IH]; intros H N; [destruct H|]. cbn [arguments]. destruct H as [H|H].
  - injection H as -> ->. destruct (dget n card) eqn:E; [exfalso; apply N, dget_in; eauto|reflexivity].
  - rewrite (IH H N). destruct (dget n' card); reflexivity.
Qed.
Definition subset (l1 l2 : list text) : bool := forallb (fun k => existsb (teqb k) l2) l1.
Lemma subset_in l1 l2 k : subset l1 l2 = true -> In k l1 -> In k l2.
Proof. intros H I. unfold subset in H. rewrite forallb_forall in H. specialize (H k I). apply existsb_exists in H. destruct H as [y [A B]]. apply teqb_eq in B. subst. exact A. Qed.
Theorem arguments_given {V} a (card : list (text * V)) : a <> DQN -> full_card a card -> exists d, arguments (passed a) card = Some d /\
  Forall2 (fun x y => fst x = fst y /\ dget (snd x) card = Some (snd y)) (passed a) d.
Proof.
  intros N F. destruct (arguments_ok (passed a) card) as [d [A [B C]]]; [|exists d; auto].
  intros x I. apply F. apply (subset_in (map snd (passed a))); [destruct a; [contradiction|vm_compute; reflexivity..]|]. apply in_map. exact I.
Qed.
Lemma not_in_table l k : existsb (teqb k) l = false -> ~ In k l.
Proof. intros H I. assert (existsb (teqb k) l = true) by (apply existsb_exists; exists k; split; [exact I|apply teqb_eq; reflexivity]). congruence. Qed.
Theorem dqn_raises {V} m (card : list (text * V)) c w ncores n_steps trains : full_card DQN card -> runner DQN m card c w ncores n_steps trains = ([], 1).
Proof.
  intros F. unfold runner. rewrite (arguments_none (passed DQN) card (t "eps_final") (t "eps_final")); [reflexivity|right; right; right; right; left; reflexivity|].
  intros H. apply F in H. revert H. apply not_in_table. vm_compute. reflexivity.
Qed.
Theorem runner_train {V} a m (card : list (text * V)) c w ncores n_steps trains : a <> DQN -> full_card a card ->
  runner a m card c w ncores n_steps trains = train a m c w (n_envs_of ncores) n_steps trains.
Proof. intros N F. destruct (arguments_given a card N F) as [d [A _]]. unfold runner. rewrite A. reflexivity. Qed.
Lemma n_envs_pos n : 1 <= n_envs_of n.
Proof. unfold n_envs_of. destruct (n <=? 1) eqn:E; [lia|]. apply Nat.leb_gt in E. lia. Qed.
Theorem runner_exits {V} a m (card : list (text * V)) c w ncores n_steps trains :
  snd (runner a m card c w ncores n_steps trains) = 1 /\ absent ModelLast (fst (runner a m card c w ncores n_steps trains)).
Proof. unfold runner. destruct (arguments _ _); [apply always_exits|]. split; [reflexivity|intros v []]. Qed.
Lemma arguments_ext {V} l (c1 c2 : list (text * V)) : (forall x, In x l -> dget (snd x) c1 = dget (snd x) c2) -> arguments l c1 = arguments l c2.
Proof.
  induction l as [|[a n] r IH]; intros H; [reflexivity|]. cbn [arguments]. pose proof (H (a, n) (or_introl eq_refl)) as E. cbn [snd] in E. rewrite E. rewrite IH by (intros; apply H; right; assumption). reflexivity.
Qed.
Theorem ignored_names {V} a (c1 c2 : list (text * V)) : (forall k, ~ In k (ignored a) -> dget k c1 = dget k c2) -> arguments (passed a) c1 = arguments (passed a) c2.
Proof.
  intros H. apply arguments_ext. intros x I. apply H. intros J.
  assert (D : forallb (fun k => negb (existsb (teqb k) (map snd (passed a)))) (ignored a) = true) by (destruct a; vm_compute; reflexivity).
  rewrite forallb_forall in D. specialize (D _ J). apply negb_true_iff in D. revert D. intros D. apply not_in_table in D. apply D. apply in_map. exact I.
Qed.
Theorem ignored_accepted a k : In k (ignored a) -> In k (map fst (table (card_name a))).
Proof. apply subset_in. destruct a; vm_compute; reflexivity. Qed.
(** ** The adjusted frequency *)
Theorem adjust_least ncores freq : 1 <= freq -> Nat.divide (n_envs_of ncores) (adjust ncores freq) /\ freq <= adjust ncores freq < freq + n_envs_of ncores.
Proof.
  intros F. unfold adjust, n_envs_of. destruct (ncores <=? 1) eqn:E; [split; [exists freq; lia|lia]|]. apply Nat.leb_gt in E.
  destruct (freq mod ncores =? 0) eqn:M.
  - apply Nat.eqb_eq in M. split; [apply Nat.mod_divide; [lia|exact M]|lia].
  - apply Nat.eqb_neq in M. pose proof (Nat.mod_upper_bound freq ncores ltac:(lia)) as U. pose proof (Nat.div_mod_eq freq ncores) as D. split; [|lia].
    exists (freq / ncores + 1). rewrite D at 1. replace (freq mod ncores) with (freq mod ncores) by reflexivity. lia.
Qed.
Theorem every_check a ncores n_steps trains avg total freq t0 : a <> DQN -> 1 <= n_steps -> 1 <= freq -> 1 <= t0 -> t0 <= total / (n_envs_of ncores * n_steps) * (n_envs_of ncores * n_steps) ->
  Nat.divide (adjust ncores freq) t0 -> In t0 (times (learn_events a (n_envs_of ncores) n_steps trains total)) /\ due (Cb (adjust ncores freq) avg total) t0 = true.
Proof.
  intros N S F T U D. pose proof (n_envs_pos ncores) as P. destruct (adjust_least ncores freq F) as [A B]. split.
  - apply step_times; auto. destruct (Nat.divide_trans _ _ _ A D) as [i I]. exists i. split; [nia|]. split; [exact I|]. rewrite <- I.
    set (nb := n_envs_of ncores * n_steps) in *. assert (NB : nb <> 0) by (unfold nb; nia).
    destruct a; [contradiction|exact U|exact U|]. apply (Nat.le_trans _ _ _ U). apply Nat.mul_le_mono_r. apply Nat.div_le_mono; lia.
  - apply checks; cbn [check_freq]; [lia|]. left. exact D.
Qed.

(** ** The runs *)
Theorem runner_rollouts {V} a m (card : list (text * V)) c w ncores n_steps trains : a = A2C \/ a = PPO -> full_card a card -> 1 <= n_steps -> readable c w -> 1 <= total_timesteps c ->
  holds LastModel (rollout_rounds (n_envs_of ncores * n_steps) (total_timesteps c)) (fst (runner a m card c w ncores n_steps trains)).
Proof. intros A F S R T. rewrite runner_train by (try exact F; destruct A; subst; discriminate). apply on_policy_rounds; auto. apply n_envs_pos. Qed.
Theorem runner_acer {V} m (card : list (text * V)) c w ncores n_steps trains : full_card ACER card -> 1 <= n_steps -> readable c w -> 1 <= total_timesteps c ->
  holds LastModel (let more := if total_timesteps c mod n_envs_of ncores =? 0 then 0 else 1 in (total_timesteps c - 1) / (n_envs_of ncores * n_steps) + more) (fst (runner ACER m card c w ncores n_steps trains)).
Proof.
  intros F S R T. rewrite runner_train by (try exact F; discriminate). pose proof (acer_rounds m c w (n_envs_of ncores) n_steps trains (n_envs_pos ncores) S R T) as H. cbv zeta.
  destruct (_ mod _ =? 0); [rewrite Nat.add_0_r|]; exact H.
Qed.
Theorem runner_best {V} a m (card : list (text * V)) c w ncores n_steps trains v : a <> DQN -> full_card a card ->
  (holds BestModel v (fst (runner a m card c w ncores n_steps trains)) <-> first_largest (readings c w (learn_events a (n_envs_of ncores) n_steps trains (total_timesteps c)) 0) v).
Proof. intros A F. rewrite runner_train by assumption. apply best_model. Qed.
