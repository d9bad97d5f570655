(** Proofs about the checks for nan and inf. *)
From Coq Require Import List Arith Lia ZArith QArith Qabs Bool.
From Verif Require Import NC_Model NC_Spec.
Import ListNotations.
Open Scope nat_scope.

Lemma nan_in : forall l, existsb is_nan l = true <-> In NaN l.
Proof.
  intros l. rewrite existsb_exists. split.
  - intros [x [I H]]. destruct x; try discriminate. exact I.
  - intros I. exists NaN. split; [exact I|reflexivity].
Qed.
Lemma inf_in : forall l, existsb is_inf l = true <-> In PInf l \/ In NInf l.
Proof.
  intros l. rewrite existsb_exists. split.
  - intros [x [I H]]. destruct x; try discriminate; auto.
  - intros [I|I]; [exists PInf|exists NInf]; split; auto.
Qed.
Lemma found_spec : forall c args n q, In (n, q) (found c args) <-> exists l, In (n, l) args /\ holds (check_inf c) l q.
Proof.
  intros c args n q. unfold found. rewrite in_flat_map. split.
  - intros [[n' l] [I H]]. cbn [fst snd] in H. apply in_app_or in H. destruct H as [H|H].
    + destruct (check_inf c && existsb is_inf l) eqn:B; [|contradiction]. apply andb_prop in B. destruct B as [B1 B2]. destruct H as [H|[]]. injection H as -> <-. exists l. split; [exact I|]. cbn. rewrite <- inf_in. auto.
    + destruct (existsb is_nan l) eqn:B; [|contradiction]. destruct H as [H|[]]. injection H as -> <-. exists l. split; [exact I|]. cbn. now apply nan_in.
  - intros [l [I H]]. exists (n, l). split; [exact I|]. cbn [fst snd]. apply in_or_app. destruct q; cbn in H.
    + left. destruct H as [H1 H2]. rewrite H1, (proj2 (inf_in l) H2). now left.
    + right. rewrite (proj2 (nan_in l) H). now left.
Qed.
Lemma found_none : forall c args, found c args = [] <-> ~ exists n l q, In (n, l) args /\ holds (check_inf c) l q.
Proof.
  intros c args. split.
  - intros E [n [l [q H]]]. assert (I : In (n, q) (found c args)) by (apply found_spec; eauto). now rewrite E in I.
  - intros N. destruct (found c args) as [|[n q] t] eqn:E; [reflexivity|]. exfalso. apply N. assert (I : In (n, q) (found c args)) by (rewrite E; now left). apply found_spec in I. destruct I as [l I]. now exists n, l, q.
Qed.

Section Env.
Context {V I : Type}.
Variables (v_reset : V -> V * list num) (v_async : V -> list num -> V) (v_wait : V -> V * returned I).
Notation direct := (direct v_reset v_async v_wait).
Notation directly := (directly v_reset v_async v_wait).
Notation arrays := (arrays v_reset v_wait).
Notation faulty := (faulty v_reset v_wait).
Notation faulty_at := (faulty_at v_reset v_async v_wait).
Notation do_call := (do_call v_reset v_async v_wait).
Notation run := (run v_reset v_async v_wait).

Definition origin_of (w : wrapper) (k : call) : origin :=
  match k with CAsync _ => FromModel (w_observations w) | CReset => AtReset | CWait => match w_actions w with None => AtReset | Some a => FromEnv a end end.
Definition muted (c : cfg) (w : wrapper) : bool := negb (raise_exception c) && warn_once c && w_warned w.
Definition after (w : wrapper) (v : V) (k : call) (b : bool) : wrapper := Wrapper (last_given [k] (w_actions w)) (last_seen [snd (direct v k)] (w_observations w)) b.

Lemma quiet_call : forall c w v k, muted c w = true \/ found c (arrays v k) = [] -> do_call c w v k = (after w v k (w_warned w), fst (direct v k), snd (direct v k), None).
Proof.
  intros c w v k H. unfold NC_Model.do_call, after. destruct k as [|a|].
  - cbn [NC_Spec.direct fst snd]. cbn [NC_Spec.arrays] in H. destruct (v_reset v) as [v' o]. cbn [fst snd] in *. unfold check_val. cbn [w_warned]. unfold muted in H.
    destruct (negb (raise_exception c) && warn_once c && w_warned w) eqn:B; [reflexivity|]. destruct H as [H|H]; [discriminate|]. rewrite H. reflexivity.
  - cbn [NC_Spec.arrays] in H. unfold check_val. unfold muted in H.
    destruct (negb (raise_exception c) && warn_once c && w_warned w) eqn:B; [reflexivity|]. destruct H as [H|H]; [discriminate|]. rewrite H. reflexivity.
  - cbn [NC_Spec.direct fst snd]. cbn [NC_Spec.arrays] in H. destruct (v_wait v) as [v' [[[o r] n] i]]. cbn [fst snd] in *. unfold check_val. unfold muted in H.
    destruct (negb (raise_exception c) && warn_once c && w_warned w) eqn:B; [reflexivity|]. destruct H as [H|H]; [discriminate|]. rewrite H. reflexivity.
Qed.
Lemma loud_call : forall c w v k, muted c w = false -> found c (arrays v k) <> [] ->
  do_call c w v k = (if raise_exception c then (Wrapper (match k with CReset => None | _ => w_actions w end) (w_observations w) true, match k with CAsync _ => v | _ => fst (direct v k) end, AError (found c (arrays v k), origin_of w k), None)
                     else (after w v k true, fst (direct v k), snd (direct v k), Some (found c (arrays v k), origin_of w k))).
Proof.
  intros c w v k M F. unfold NC_Model.do_call, after. unfold muted in M. destruct k as [|a|].
  - cbn [NC_Spec.direct fst snd]. cbn [NC_Spec.arrays] in *. destruct (v_reset v) as [v' o]. cbn [fst snd] in *. unfold check_val. cbn [w_warned w_actions w_observations]. rewrite M.
    destruct (found c [(Observations, o)]) as [|x t] eqn:E; [congruence|]. destruct (raise_exception c); reflexivity.
  - cbn [NC_Spec.arrays] in *. unfold check_val. rewrite M. destruct (found c [(Actions, a)]) as [|x t] eqn:E; [congruence|]. destruct (raise_exception c); reflexivity.
  - cbn [NC_Spec.direct fst snd]. cbn [NC_Spec.arrays] in *. destruct (v_wait v) as [v' [[[o r] n] i]]. cbn [fst snd] in *. unfold check_val. rewrite M.
    destruct (found c [(Observations, o); (Rewards, r); (News, n)]) as [|x t] eqn:E; [congruence|]. destruct (raise_exception c); reflexivity.
Qed.
Lemma faulty_found : forall c v k, faulty (check_inf c) v k <-> found c (arrays v k) <> [].
Proof.
  intros c v k. unfold NC_Spec.faulty. split.
  - intros H E. apply found_none in E. auto.
  - intros N. destruct (found c (arrays v k)) as [|[n q] t] eqn:E; [congruence|]. assert (J : In (n, q) (found c (arrays v k))) by (rewrite E; now left). apply found_spec in J. destruct J as [l J]. now exists n, l, q.
Qed.
Definition is_loud (c : cfg) (w : wrapper) (v : V) (k : call) : bool := negb (muted c w) && negb (match found c (arrays v k) with [] => true | _ => false end).
Lemma call_warn : forall c w v k, raise_exception c = false ->
  do_call c w v k = (after w v k (w_warned w || is_loud c w v k), fst (direct v k), snd (direct v k), if is_loud c w v k then Some (found c (arrays v k), origin_of w k) else None).
Proof.
  intros c w v k R. unfold is_loud. destruct (muted c w) eqn:M.
  - rewrite quiet_call by auto. cbn. now rewrite orb_false_r.
  - destruct (found c (arrays v k)) as [|x t] eqn:E.
    + rewrite quiet_call by auto. cbn. now rewrite orb_false_r.
    + rewrite loud_call; [|exact M|rewrite E; discriminate]. rewrite R, E. cbn. now rewrite orb_true_r.
Qed.
Lemma run_cons : forall c w v k t, run c w v (k :: t) =
  let '(w', v', a, m) := do_call c w v k in let '(w'', v'', l) := run c w' v' t in (w'', v'', (a, m) :: l).
Proof. reflexivity. Qed.
Lemma last_given_app : forall a b d, last_given (a ++ b) d = last_given b (last_given a d).
Proof. induction a as [|[| |] t IH]; intros; cbn; auto. Qed.
Lemma last_seen_app : forall (a b : list (answer I)) d, last_seen (a ++ b) d = last_seen b (last_seen a d).
Proof. induction a as [|[o| |[[[o r] n] i]|m] t IH]; intros; cbn; auto. Qed.
Lemma run_warn : forall c ks w v, raise_exception c = false ->
  exists b l, run c w v ks = (Wrapper (last_given ks (w_actions w)) (last_seen (snd (directly v ks)) (w_observations w)) b, fst (directly v ks), l) /\ map fst l = snd (directly v ks).
Proof.
  intros c ks. induction ks as [|k t IH]; intros w v R.
  - exists (w_warned w), []. split; [destruct w; reflexivity|reflexivity].
  - rewrite run_cons, call_warn by exact R. destruct (IH (after w v k (w_warned w || is_loud c w v k)) (fst (direct v k)) R) as [b [l [E F]]].
    rewrite E. exists b. eexists. split.
    + cbn [NC_Spec.directly fst snd]. unfold after. cbn [w_actions w_observations].
      replace (last_given t (last_given [k] (w_actions w))) with (last_given (k :: t) (w_actions w)) by (destruct k; reflexivity).
      replace (last_seen (snd (directly (fst (direct v k)) t)) (last_seen [snd (direct v k)] (w_observations w))) with (last_seen (snd (direct v k) :: snd (directly (fst (direct v k)) t)) (w_observations w))
        by (exact (last_seen_app [snd (direct v k)] _ _)).
      reflexivity.
    + cbn [map fst NC_Spec.directly snd]. now rewrite F.
Qed.

(** ** Transparent *)
Lemma transparent : forall c ks v, raise_exception c = false ->
  snd (fst (run c start v ks)) = fst (directly v ks) /\ map fst (snd (run c start v ks)) = snd (directly v ks).
Proof. intros c ks v R. destruct (run_warn c ks start v R) as [b [l [E F]]]. rewrite E. cbn. auto. Qed.
Lemma faulty_shift : forall inf v k t i, faulty_at inf v (k :: t) (S i) <-> faulty_at inf (fst (direct v k)) t i.
Proof. intros inf v k t i. unfold NC_Spec.faulty_at. cbn [nth_error firstn NC_Spec.directly fst]. reflexivity. Qed.
Lemma faulty_zero : forall inf v k t, faulty_at inf v (k :: t) 0 <-> faulty inf v k.
Proof.
  intros inf v k t. unfold NC_Spec.faulty_at. cbn [nth_error firstn NC_Spec.directly fst]. split.
  - intros [k' [E H]]. injection E as <-. exact H.
  - intros H. now exists k.
Qed.
Lemma clean : forall c ks w v, (forall i, ~ faulty_at (check_inf c) v ks i) ->
  snd (fst (run c w v ks)) = fst (directly v ks) /\ snd (run c w v ks) = map (fun a => (a, None)) (snd (directly v ks)).
Proof.
  intros c ks. induction ks as [|k t IH]; intros w v N; [split; reflexivity|].
  rewrite run_cons. assert (F : found c (arrays v k) = []).
  { destruct (found c (arrays v k)) eqn:E; [reflexivity|]. exfalso. apply (N 0). apply faulty_zero. apply faulty_found. rewrite E. discriminate. }
  rewrite quiet_call by auto. destruct (IH (after w v k (w_warned w)) (fst (direct v k))) as [A B].
  { intros i H. apply (N (S i)). now apply faulty_shift. }
  destruct (run c (after w v k (w_warned w)) (fst (direct v k)) t) as [[w' v'] l]. cbn [fst snd] in *. cbn [NC_Spec.directly fst snd map]. now rewrite A, B.
Qed.
Lemma warned_run : forall c ks w v i, raise_exception c = false ->
  (exists m, nth_error (map snd (snd (run c w v ks))) i = Some (Some m)) <->
  faulty_at (check_inf c) v ks i /\ (warn_once c = true -> w_warned w = false /\ forall j, j < i -> ~ faulty_at (check_inf c) v ks j).
Proof.
  intros c ks. induction ks as [|k t IH]; intros w v i R.
  - split; [intros [m H]; destruct i; discriminate|]. intros [[k [H _]] _]. destruct i; discriminate.
  - rewrite run_cons, call_warn by exact R. specialize (IH (after w v k (w_warned w || is_loud c w v k)) (fst (direct v k))).
    destruct (run c (after w v k (w_warned w || is_loud c w v k)) (fst (direct v k)) t) as [[w' v'] l] eqn:E. cbn [snd] in *.
    assert (L : is_loud c w v k = true <-> faulty (check_inf c) v k /\ (warn_once c = true -> w_warned w = false)).
    { unfold is_loud, muted. rewrite R. cbn [negb andb]. rewrite faulty_found. destruct (warn_once c), (w_warned w), (found c (arrays v k)); cbn; split; try discriminate; try tauto; try (intros [H1 H2]; try congruence; now specialize (H2 eq_refl)); intros; split; intros; congruence. }
    destruct i as [|i]; cbn [map snd nth_error].
    + rewrite faulty_zero. destruct (is_loud c w v k).
      * split; [|eauto]. intros _. destruct (proj1 L eq_refl) as [A B]. split; [exact A|]. intros O. split; [auto|]. intros j J. lia.
      * split; [intros [m H]; discriminate|]. intros [A B]. assert (false = true) by (apply L; split; [exact A|]; intros O; apply (B O)). discriminate.
    + rewrite IH by exact R. rewrite faulty_shift. unfold after. cbn [w_warned]. split.
      * intros [A B]. split; [exact A|]. intros O. destruct (B O) as [B1 B2]. apply orb_false_iff in B1. destruct B1 as [B1 B3]. split; [exact B1|]. intros [|j] J.
        -- rewrite faulty_zero. intros F. assert (is_loud c w v k = true) by (apply L; auto). congruence.
        -- rewrite faulty_shift. apply B2. lia.
      * intros [A B]. split; [exact A|]. intros O. destruct (B O) as [B1 B2]. split.
        -- rewrite B1. cbn. destruct (is_loud c w v k) eqn:Y; [|reflexivity]. exfalso. apply (B2 0); [lia|]. apply faulty_zero. now apply L.
        -- intros j J. rewrite <- faulty_shift. apply B2. lia.
Qed.
Lemma warns_once : forall c ks v i, raise_exception c = false -> warn_once c = true ->
  (exists m, nth_error (map snd (snd (run c start v ks))) i = Some (Some m)) <-> faulty_at (check_inf c) v ks i /\ forall j, j < i -> ~ faulty_at (check_inf c) v ks j.
Proof. intros c ks v i R O. rewrite warned_run by exact R. split; [intros [A B]; split; [exact A|apply (B O)]|intros [A B]; split; [exact A|]; intros _; split; [reflexivity|exact B]]. Qed.
Lemma warns_always : forall c ks v i, raise_exception c = false -> warn_once c = false ->
  (exists m, nth_error (map snd (snd (run c start v ks))) i = Some (Some m)) <-> faulty_at (check_inf c) v ks i.
Proof. intros c ks v i R O. rewrite warned_run by exact R. split; [tauto|]. intros A. split; [exact A|]. congruence. Qed.
Lemma raising : forall c w v k, raise_exception c = true ->
  (~ faulty (check_inf c) v k -> exists w', do_call c w v k = (w', fst (direct v k), snd (direct v k), None)) /\
  (faulty (check_inf c) v k -> exists w' m, do_call c w v k = (w', match k with CAsync _ => v | _ => fst (direct v k) end, AError m, None)).
Proof.
  intros c w v k R. assert (M : muted c w = false) by (unfold muted; now rewrite R). split.
  - intros N. eexists. rewrite quiet_call; [reflexivity|]. right. destruct (found c (arrays v k)) eqn:E; [reflexivity|]. exfalso. apply N, faulty_found. rewrite E. discriminate.
  - intros F. apply faulty_found in F. do 2 eexists. rewrite loud_call by assumption. now rewrite R.
Qed.
Lemma message_last : forall c ks k v m, raise_exception c = false -> nth_error (map snd (snd (run c start v (ks ++ [k])))) (length ks) = Some (Some m) ->
  (forall n q, In (n, q) (fst m) <-> exists l, In (n, l) (arrays (fst (directly v ks)) k) /\ holds (check_inf c) l q) /\
  snd m = match k with
          | CAsync _ => FromModel (last_seen (snd (directly v ks)) None)
          | CReset => AtReset
          | CWait => match last_given ks None with None => AtReset | Some a => FromEnv a end
          end.
Proof.
  intros c ks k v m R H.
  assert (G : forall w, exists w0 r, run c w v ks = (w0, fst (directly v ks), r) /\ length r = length ks /\ run c w v (ks ++ [k]) = let '(w', v', a, mm) := do_call c w0 (fst (directly v ks)) k in (w', v', r ++ [(a, mm)])).
  { clear H. revert v. induction ks as [|k' t IH]; intros v w.
    - exists w, []. split; [reflexivity|]. split; [reflexivity|]. cbn [app NC_Spec.directly fst]. rewrite run_cons. destruct (do_call c w v k) as [[[w' v'] a] mm]. reflexivity.
    - cbn [app]. rewrite !run_cons, call_warn by exact R. destruct (IH (fst (direct v k')) (after w v k' (w_warned w || is_loud c w v k'))) as [w0 [r [A [L B]]]]. rewrite A, B. exists w0. eexists. split; [reflexivity|]. split; [cbn; now rewrite L|].
      cbn [NC_Spec.directly fst]. destruct (do_call c w0 (fst (directly (fst (direct v k')) t)) k) as [[[w' v'] a] mm]. reflexivity. }
  destruct (G start) as [w0 [r [A [L B]]]]. rewrite B in H. rewrite call_warn in H by exact R. cbn [snd] in H. rewrite map_app in H. rewrite nth_error_app2 in H by (rewrite map_length; lia). rewrite map_length, L, Nat.sub_diag in H. cbn [map nth_error snd] in H.
  destruct (is_loud c w0 (fst (directly v ks)) k); [|discriminate]. injection H as <-. cbn [fst snd]. split; [intros; apply found_spec|].
  destruct (run_warn c ks start v R) as [b [l [E _]]]. rewrite A in E. injection E as -> _. unfold origin_of. destruct k; reflexivity.
Qed.
End Env.

(** ** check_env *)
Section Check.
Context {E : Type}.
Variables (e_reset : E -> E * list num) (e_step : E -> list num -> E * (list num * num * bool)).
Notation dd := (directly (d_reset e_reset) (@d_async E) (d_wait e_reset e_step)).
Definition calls (acts : list (list num)) : list call := flat_map (fun a => [CAsync a; CWait]) acts.
Definition evs (d : bool) : list event := if d then [Step true; Reset] else [Step false].
Lemma log_of : forall acts e a l, exists ds, length ds = length acts /\ snd (fst (dd (e, a, l) (calls acts))) = l ++ concat (map evs ds).
Proof.
  induction acts as [|x t IH]; intros e a l; [exists []; split; [reflexivity|]; cbn; now rewrite app_nil_r|].
  cbn [calls flat_map app]. cbn [directly direct fst snd d_async d_wait]. destruct (e_step e x) as [e' [[o r] d]] eqn:S. destruct d.
  - destruct (e_reset e') as [e'' o'] eqn:Q. cbn [fst snd]. destruct (IH e'' x (l ++ [Step true; Reset])) as [ds [L D]]. exists (true :: ds). split; [cbn; now rewrite L|]. unfold calls in D. rewrite D. rewrite <- app_assoc. reflexivity.
  - cbn [fst snd]. destruct (IH e' x (l ++ [Step false])) as [ds [L D]]. exists (false :: ds). split; [cbn; now rewrite L|]. unfold calls in D. rewrite D. rewrite <- app_assoc. reflexivity.
Qed.
Lemma check_shape : forall inside a0 acts e l ms, check_env e_reset e_step inside a0 acts e = Some (l, ms) ->
  exists e1 o1 e2 o2 r d ds, e_reset e = (e1, o1) /\ e_step e1 a0 = (e2, (o2, r, d)) /\ inside o1 = true /\ inside o2 = true /\ length ds = length acts /\ l = [Reset; Step d] ++ concat (map evs ds) /\
    ms = flat_map (fun am => match snd am with Some m => [m] | None => [] end) (snd (check_nan e_reset e_step acts (e2, [], [Reset; Step d]))).
Proof.
  intros inside a0 acts e l ms H. unfold check_env in H. destruct (e_reset e) as [e1 o1] eqn:R. destruct (inside o1) eqn:I1; [|discriminate]. destruct (e_step e1 a0) as [e2 [[o2 r] d]] eqn:S. destruct (inside o2) eqn:I2; [|discriminate].
  destruct (check_nan e_reset e_step acts (e2, [], [Reset; Step d])) as [[w s] ll] eqn:K. injection H as <- <-.
  destruct (log_of acts e2 [] [Reset; Step d]) as [ds [L D]]. exists e1, o1, e2, o2, r, d, ds. do 5 (split; [auto|]). split; [|now rewrite K].
  pose proof (transparent (d_reset e_reset) (@d_async E) (d_wait e_reset e_step) (Cfg false true true) (calls acts) (e2, [], [Reset; Step d]) eq_refl) as [T _].
  unfold check_nan in K. unfold calls in T, D. rewrite K in T. cbn [fst snd] in T. rewrite T. exact D.
Qed.
Lemma no_late : forall ds p, ~ late (evs p ++ concat (map evs ds)).
Proof.
  assert (G : forall ds h, (h = Reset \/ h = Step false) -> ~ late (h :: concat (map evs ds))).
  { induction ds as [|d t IH]; intros h Hh [a [b [x H]]].
    - cbn in H. destruct a as [|? [|? ?]]; cbn in H; try discriminate.
    - destruct a as [|y a]; [injection H as -> _; destruct Hh; discriminate|]. injection H as _ H. cbn [map concat] in H. destruct d; cbn [evs app] in H.
      + destruct a as [|y' a]; [discriminate|]. injection H as _ H. apply (IH Reset); [now left|]. now exists a, b, x.
      + apply (IH (Step false)); [now right|]. now exists a, b, x. }
  intros ds [|] H; cbn [evs app] in H.
  - destruct H as [a [b [x H]]]. destruct a as [|y a]; [discriminate|]. injection H as _ H. apply (G ds Reset); [now left|]. now exists a, b, x.
  - now apply (G ds (Step false)); [right|].
Qed.
Lemma count_app : forall (p : event -> bool) a b, length (filter p (a ++ b)) = length (filter p a) + length (filter p b).
Proof. intros. now rewrite filter_app, app_length. Qed.
Lemma counts : forall ds, steps (concat (map evs ds)) = length ds /\ resets (concat (map evs ds)) = ends (concat (map evs ds)).
Proof.
  induction ds as [|d t [A B]]; [split; reflexivity|]. cbn [map concat]. unfold steps, resets, ends in *. rewrite !count_app, A, B. destruct d; cbn; split; reflexivity.
Qed.
Lemma checked : forall inside a0 acts e l ms, check_env e_reset e_step inside a0 acts e = Some (l, ms) ->
  exists d rest, l = Reset :: Step d :: rest /\ steps rest = length acts /\ resets rest = ends rest /\ (late l <-> d = true /\ acts <> []).
Proof.
  intros inside a0 acts e l ms H. destruct (check_shape _ _ _ _ _ _ H) as [e1 [o1 [e2 [o2 [r [d [ds [_ [_ [_ [_ [L [-> _]]]]]]]]]]]]]. destruct (counts ds) as [A B].
  exists d, (concat (map evs ds)). split; [reflexivity|]. split; [congruence|]. split; [exact B|]. split.
  - intros [a [b [x Hl]]]. cbn [app] in Hl. destruct a as [|y a]; [discriminate|]. injection Hl as _ Hl. destruct ds as [|d' t].
    + cbn in Hl. destruct a as [|? [|? ?]]; discriminate.
    + split; [|intros ->; discriminate]. destruct d; [reflexivity|]. exfalso. destruct a as [|y' a]; [discriminate|]. injection Hl as _ Hl. apply (no_late t d'). now exists a, b, x.
  - intros [-> N]. destruct ds as [|d' t]; [destruct acts; [congruence|discriminate]|]. destruct d'; cbn.
    + now exists [Reset], (Reset :: concat (map evs t)), true.
    + now exists [Reset], (concat (map evs t)), false.
Qed.
Lemma once_flat : forall {A} (l : list (A * option message)), (forall i j m m', nth_error (map snd l) i = Some (Some m) -> nth_error (map snd l) j = Some (Some m') -> i = j) ->
  length (flat_map (fun am : A * option message => match snd am with Some m => [m] | None => [] end) l) <= 1.
Proof.
  intros A l. induction l as [|[a [m|]] t IH]; intros U; [cbn; lia| |].
  - cbn [flat_map snd app length]. assert (Z : flat_map (fun am : A * option message => match snd am with Some m0 => [m0] | None => [] end) t = []).
    { clear IH. assert (N : forall i m', nth_error (map snd t) i <> Some (Some m')) by (intros i m' H; specialize (U 0 (S i) m m' eq_refl H); lia). clear U.
      induction t as [|[a' [m'|]] t IH]; [reflexivity| |]. - exfalso. now apply (N 0 m'). - cbn. apply IH. intros i m' H. now apply (N (S i) m'). }
    rewrite Z. cbn. lia.
  - cbn [flat_map snd app]. apply IH. intros i j m m' A1 A2. specialize (U (S i) (S j) m m' A1 A2). lia.
Qed.
Lemma none_flat : forall {A} (l : list (A * option message)), flat_map (fun am : A * option message => match snd am with Some m => [m] | None => [] end) l = [] <-> forall i m, nth_error (map snd l) i <> Some (Some m).
Proof.
  intros A l. split.
  - induction l as [|[a [m|]] t IH]; intros H i m' K; [destruct i; discriminate|discriminate|]. destruct i; [discriminate|]. now apply (IH H i m').
  - induction l as [|[a [m|]] t IH]; intros N; [reflexivity|exfalso; now apply (N 0 m)|]. cbn. apply IH. intros i m' H. now apply (N (S i) m').
Qed.
Lemma least : forall (P : nat -> Prop) n, (forall i, P i \/ ~ P i) -> P n -> exists i, P i /\ forall j, j < i -> ~ P j.
Proof.
  intros P n D. induction n as [n IH] using lt_wf_ind. intros H.
  assert (G : forall k, (exists j, j < k /\ P j) \/ forall j, j < k -> ~ P j).
  { induction k as [|k [G|G]]; [right; lia| |]. - left. destruct G as [j [? ?]]. exists j. split; [lia|assumption]. - destruct (D k); [left; exists k; split; [lia|assumption]|]. right. intros j J. destruct (Nat.eq_dec j k) as [->|]; [assumption|]. apply G. lia. }
  destruct (G n) as [[j [J K]]|K]; [now apply (IH j)|]. now exists n.
Qed.
Lemma checked_messages : forall inside a0 acts e l ms e1 o1 e2 o2 r d, e_reset e = (e1, o1) -> e_step e1 a0 = (e2, (o2, r, d)) -> check_env e_reset e_step inside a0 acts e = Some (l, ms) ->
  length ms <= 1 /\ (ms = [] <-> forall i, ~ faulty_at (d_reset e_reset) (@d_async E) (d_wait e_reset e_step) true (e2, [], [Reset; Step d]) (flat_map (fun a => [CAsync a; CWait]) acts) i).
Proof.
  intros inside a0 acts e l ms e1 o1 e2 o2 r d R S H. destruct (check_shape _ _ _ _ _ _ H) as [e1' [o1' [e2' [o2' [r' [d' [ds [R' [S' [_ [_ [_ [_ ->]]]]]]]]]]]]].
  rewrite R in R'. injection R' as <- <-. rewrite S in S'. injection S' as <- <- <- <-.
  pose proof (fun i => warns_once (d_reset e_reset) (@d_async E) (d_wait e_reset e_step) (Cfg false true true) (calls acts) (e2, [], [Reset; Step d]) i eq_refl eq_refl) as W.
  cbn [check_inf] in W. unfold check_nan. fold (calls acts). split.
  - apply once_flat. intros i j m m' A B. destruct (proj1 (W i) (ex_intro _ m A)) as [C1 C2], (proj1 (W j) (ex_intro _ m' B)) as [D1 D2]. destruct (lt_eq_lt_dec i j) as [[K|K]|K]; [|exact K|]; exfalso; [now apply (D2 i)|now apply (C2 j)].
  - rewrite none_flat. split.
    + intros N i F. set (P := fun i => faulty_at (d_reset e_reset) (@d_async E) (d_wait e_reset e_step) true (e2, [], [Reset; Step d]) (calls acts) i).
      destruct (least P i) as [j J]; [|exact F|].
      { intros n. unfold P, faulty_at. destruct (nth_error (calls acts) n) as [k|] eqn:K; [|right; intros [k [? _]]; congruence].
        destruct (found (Cfg false true true) (arrays (d_reset e_reset) (d_wait e_reset e_step) (fst (dd (e2, [], [Reset; Step d]) (firstn n (calls acts)))) k)) as [|x y] eqn:Q.
        - right. intros [k' [E1 E2]]. injection E1 as <-. apply (faulty_found _ _ (Cfg false true true)) in E2. congruence.
        - left. exists k. split; [reflexivity|]. apply (faulty_found _ _ (Cfg false true true)). rewrite Q. discriminate. }
      destruct (proj2 (W j) J) as [m M]. now apply (N j m).
    + intros N i m M. destruct (proj1 (W i) (ex_intro _ m M)) as [F _]. now apply (N i).
Qed.
End Check.

Lemma warn_box_spec : forall bounds, warn_box bounds = false <-> Forall (fun b => (Qabs (fst b) == Qabs (snd b))%Q /\ (Qabs (fst b) <= 1)%Q) bounds.
Proof.
  intros bounds. unfold warn_box. rewrite !orb_false_iff. rewrite Forall_forall.
  assert (G : forall (p : Q * Q -> bool), existsb (fun b => negb (p b)) bounds = false <-> forall b, In b bounds -> p b = true).
  { intros p. induction bounds as [|x t IH]; [cbn; tauto|]. cbn [existsb]. rewrite orb_false_iff, negb_false_iff, IH. split; [intros [A B] b [<-|I]; auto|intros H; split; [apply H; now left|intros b I; apply H; now right]]. }
  rewrite (G (fun b => Qeq_bool (Qabs (fst b)) (Qabs (snd b)))), (G (fun b => Qle_bool (Qabs (fst b)) 1)), (G (fun b => Qle_bool (Qabs (snd b)) 1)). split.
  - intros [[A B] C] b I. split; [apply Qeq_bool_iff; auto|apply Qle_bool_iff; auto].
  - intros H. repeat split; intros b I; destruct (H b I) as [A B]; [now apply Qeq_bool_iff|now apply Qle_bool_iff|]. apply Qle_bool_iff. now rewrite <- A.
Qed.
