From Coq Require Import List Arith ZArith QArith Bool Lia Lqa Permutation String.
From Verif Require Import Base BaseFacts Swarm_Model MO_Model MO_Spec MO_Proofs.
Import ListNotations.
Open Scope nat_scope.

(* ---------- load_results ---------- *)
Section L.
Context {X : Type}.
Lemma insert_row_perm (a : Q * X) l : Permutation (insert_row a l) (a :: l).
Proof.
  induction l as [|b l IH]; simpl; auto. destruct (Qle_bool (fst a) (fst b)); auto.
  rewrite IH. apply perm_swap.
Qed.
Lemma sort_rows_perm (l : list (Q * X)) : Permutation (sort_rows l) l.
Proof. induction l as [|a l IH]; simpl; auto. rewrite insert_row_perm. auto. Qed.
Lemma insert_row_sorted (a : Q * X) l : ascending (map fst l) -> ascending (map fst (insert_row a l)).
Proof.
  induction l as [|b l IH]; intros H; [simpl; auto|]. cbn [insert_row]. destruct (Qle_bool (fst a) (fst b)) eqn:E.
  - apply Qle_bool_iff in E. simpl. split; auto.
  - assert (E' : (fst b <= fst a)%Q). { destruct (Qlt_le_dec (fst a) (fst b)) as [L|L]; auto. apply Qlt_le_weak, Qle_bool_iff in L. congruence. }
    destruct l as [|c l]; [simpl; auto|]. destruct H as (H1 & H2). specialize (IH H2). cbn [insert_row] in *.
    destruct (Qle_bool (fst a) (fst c)); simpl in *; auto.
Qed.
Lemma sort_rows_sorted (l : list (Q * X)) : ascending (map fst (sort_rows l)).
Proof. induction l as [|a l IH]; simpl; auto. apply insert_row_sorted; auto. Qed.
Lemma sort_rows_id (l : list (Q * X)) : ascending (map fst l) -> sort_rows l = l.
Proof.
  induction l as [|a l IH]; intros H; simpl; auto. destruct l as [|b l]; [reflexivity|]. destruct H as (H1 & H2).
  rewrite IH by auto. simpl. apply Qle_bool_iff in H1. simpl in H1. rewrite H1. auto.
Qed.
Lemma ascending_shift (l : list (Q * X)) d : ascending (map fst l) -> ascending (map fst (map (fun tx => (fst tx - d, snd tx)%Q) l)).
Proof.
  induction l as [|a l IH]; intros H; simpl; auto. destruct l as [|b l]; simpl; auto. destruct H as (H1 & H2). simpl in H1. split; [lra|]. apply IH; auto.
Qed.
Lemma ascending_plus (l : list (Q * X)) d : ascending (map fst l) -> ascending (map fst (map (fun tx => (fst tx + d, snd tx)%Q) l)).
Proof.
  induction l as [|a l IH]; intros H; simpl; auto. destruct l as [|b l]; simpl; auto. destruct H as (H1 & H2). simpl in H1. split; [lra|]. apply IH; auto.
Qed.
Lemma fold_min (r : list (Q * list (Q * X))) : forall q, let m := fold_left (fun m l => qmin m (fst l)) r q in
  (m <= q)%Q /\ (forall l, In l r -> (m <= fst l)%Q) /\ (m = q \/ exists l, In l r /\ m = fst l).
Proof.
  induction r as [|a r IH]; intros q; simpl; [repeat split; auto; [lra|intros ? []]|].
  destruct (IH (qmin q (fst a))) as (H1 & H2 & H3). simpl in *.
  assert (Hq : (qmin q (fst a) <= q)%Q /\ (qmin q (fst a) <= fst a)%Q /\ (qmin q (fst a) = q \/ qmin q (fst a) = fst a)).
  { unfold qmin. destruct (Qle_bool q (fst a)) eqn:E; [apply Qle_bool_iff in E; repeat split; auto; lra|].
    assert (E' : (fst a <= q)%Q). { destruct (Qlt_le_dec q (fst a)) as [L|L]; auto. apply Qlt_le_weak, Qle_bool_iff in L. congruence. }
    repeat split; auto; lra. }
  destruct Hq as (Q1 & Q2 & Q3). repeat split; [lra| |].
  - intros l [<-|Hl]; [lra|auto].
  - destruct H3 as [H3|(l & Hl & H3)]; [destruct Q3 as [Q3|Q3]|]; [left; congruence|right; exists a; split; auto; congruence|right; eauto].
Qed.
Lemma load_spec (logs : list (Q * list (Q * X))) rows : load_results logs = Some rows ->
  exists start, (exists l, In l logs /\ start = fst l) /\ (forall l, In l logs -> (start <= fst l)%Q) /\
  Permutation rows (flat_map (fun l => map (fun tx => (fst tx + fst l - start, snd tx)%Q) (snd l)) logs) /\ ascending (map fst rows).
Proof.
  destruct logs as [|l0 r]; [discriminate|]. unfold load_results. intros H. injection H as <-.
  set (start := fold_left (fun m l => qmin m (fst l)) r (fst l0)).
  destruct (fold_min r (fst l0)) as (H1 & H2 & H3). fold start in H1, H2, H3. exists start.
  split; [destruct H3 as [H3|(l & Hl & H3)]; [exists l0; simpl; auto|exists l; simpl; auto]|].
  split; [intros l [<-|Hl]; auto|]. split.
  - change (map (fun tx => (fst tx + fst l0, snd tx)%Q) (snd l0) ++ flat_map (fun l => map (fun tx => (fst tx + fst l, snd tx)%Q) (snd l)) r)
      with (flat_map (fun l => map (fun tx => (fst tx + fst l, snd tx)%Q) (snd l)) (l0 :: r)).
    eapply perm_trans; [apply Permutation_map, sort_rows_perm|].
    clearbody start. clear. generalize (l0 :: r) as L. induction L as [|l L IH]; simpl; auto.
    rewrite map_app, map_map. simpl. apply Permutation_app; auto.
  - apply ascending_shift, sort_rows_sorted.
Qed.
Lemma load_total (logs : list (Q * list (Q * X))) : load_results logs = None <-> logs = [].
Proof. destruct logs; split; intros H; auto; discriminate. Qed.
Lemma load_single t0 (log : list (Q * X)) : ascending (map fst log) ->
  exists rows, load_results [(t0, log)] = Some rows /\ Forall2 (fun a b => (fst a == fst b)%Q /\ snd a = snd b) rows log.
Proof.
  intros H. unfold load_results. simpl. rewrite app_nil_r.
  rewrite sort_rows_id by (apply ascending_plus; auto). eexists. split; [reflexivity|]. rewrite map_map.
  clear H. induction log as [|a log IH]; simpl; constructor; auto. simpl. split; auto. lra.
Qed.
End L.

(* ---------- names ---------- *)
Lemma sub_all s : substring 0 (String.length s) s = s.
Proof. induction s; simpl; auto. rewrite IHs; auto. Qed.
Lemma sub_app a b : substring (String.length a) (String.length b) (a ++ b) = b.
Proof. induction a; simpl; auto. apply sub_all. Qed.
Lemma len_app a b : String.length (a ++ b) = String.length a + String.length b.
Proof. induction a; simpl; auto. Qed.
Lemma ends_app a : ends_with EXT (a ++ EXT) = true.
Proof.
  unfold ends_with. rewrite len_app. replace (String.length a + String.length EXT - String.length EXT) with (String.length a) by lia.
  rewrite sub_app, String.eqb_refl, andb_true_r. apply Nat.leb_le. lia.
Qed.
Lemma app_assoc_s a b c : ((a ++ b) ++ c = a ++ (b ++ c))%string.
Proof. induction a; simpl; auto. rewrite IHa; auto. Qed.
Lemma log_name_ends isdir f : ends_with EXT (log_name isdir f) = true.
Proof. unfold log_name. destruct (ends_with EXT f) eqn:E; auto. destruct isdir; rewrite <- app_assoc_s; apply ends_app. Qed.
Lemma app_inj_s a b c : (a ++ c = b ++ c)%string -> a = b.
Proof.
  revert b. induction a as [|x a IH]; intros [|y b] H; auto.
  - apply (f_equal String.length) in H. simpl in H. rewrite len_app in H. simpl in *. lia.
  - apply (f_equal String.length) in H. simpl in H. rewrite len_app in H. simpl in *. lia.
  - simpl in H. injection H as -> H. f_equal. auto.
Qed.
Lemma log_name_distinct f g : ends_with EXT f = false -> ends_with EXT g = false -> f <> g -> log_name false f <> log_name false g.
Proof. unfold log_name. intros -> -> H E. apply H. eapply app_inj_s; eauto. Qed.
Lemma log_name_shared f : ends_with EXT f = false -> exists g, g <> f /\ log_name false g = log_name false f.
Proof.
  intros H. exists (f ++ "." ++ EXT)%string. split.
  - intros E. apply (f_equal String.length) in E. rewrite !len_app in E. simpl in E. lia.
  - unfold log_name at 2. rewrite H. unfold log_name. rewrite <- app_assoc_s, ends_app. reflexivity.
Qed.

(* ---------- evaluate_policy ---------- *)
Section E.
Context {M A O P : Type} (mreset : M -> M * option O) (mstep : A -> M -> M * option (O * Q * bool))
        (predict : nat -> O -> option P -> A * option P).
Local Notation loop := (eval_loop mstep predict).
Local Notation eps := (eval_episodes mreset mstep predict).
Local Notation episode := (episode mstep predict).
Local Notation episodes := (episodes mreset mstep predict).

Lemma loop_sound fuel : forall m q o st r n m' q' r' n', loop fuel m q o st r n = Done (m', q', r', n') ->
  exists rs, episode m q o st rs m' q' /\ r' = fold_left Qplus rs r /\ n' = n + List.length rs.
Proof.
  induction fuel as [|fuel IH]; intros m q o st r n m' q' r' n' H; simpl in H; [discriminate|].
  destruct (predict q o st) as [a st'] eqn:Ep. destruct (mstep a m) as [m1 [[[o1 rw] d]|]] eqn:Es; [|discriminate].
  destruct d.
  - injection H as <- <- <- <-. exists [rw]. split; [econstructor; eauto|]. simpl. split; auto. lia.
  - destruct (IH _ _ _ _ _ _ _ _ _ _ H) as (rs & H1 & H2 & H3). exists (rw :: rs). split; [eapply ep_step; eauto|]. simpl. split; auto. lia.
Qed.
Lemma loop_complete m q o st rs m' q' : episode m q o st rs m' q' -> forall fuel r n, List.length rs <= fuel ->
  loop fuel m q o st r n = Done (m', q', fold_left Qplus rs r, n + List.length rs).
Proof.
  induction 1 as [m q o st a st' m' o' r Ep Es|m q o st a st' m' o' r rs m2 q2 Ep Es He IH]; intros fuel r0 n Hf; simpl in Hf;
    (destruct fuel as [|fuel]; [lia|]); simpl; rewrite Ep, Es.
  - rewrite Nat.add_1_r. reflexivity.
  - rewrite IH by lia. cbn [List.length fold_left]. rewrite Nat.add_succ_r. reflexivity.
Qed.
Lemma episode_pos m q o st rs m' q' : episode m q o st rs m' q' -> 1 <= List.length rs.
Proof. destruct 1; simpl; lia. Qed.

Lemma eps_sound fuel k : forall m q m' q' l, eps fuel k m q = Done (m', q', l) -> exists ls, episodes k m q ls m' q' /\ l = report ls.
Proof.
  induction k as [|k IH]; intros m q m' q' l H; simpl in H.
  - injection H as <- <- <-. exists []. split; [constructor|reflexivity].
  - destruct (mreset m) as [m1 [o|]] eqn:Er; [|discriminate].
    destruct (loop fuel m1 q o None 0 0) as [[[[m2 q2] r] n]| |] eqn:El; simpl in H; try discriminate.
    destruct (eps fuel k m2 q2) as [[[m3 q3] l']| |] eqn:Ee; simpl in H; try discriminate. injection H as <- <- <-.
    destruct (loop_sound _ _ _ _ _ _ _ _ _ _ _ El) as (rs & H1 & H2 & H3). destruct (IH _ _ _ _ _ Ee) as (ls & H4 & H5).
    exists (rs :: ls). split; [econstructor; eauto|]. simpl. subst. reflexivity.
Qed.
Lemma eps_complete k m q ls m' q' : episodes k m q ls m' q' -> forall fuel, Forall (fun rs => List.length rs <= fuel) ls ->
  eps fuel k m q = Done (m', q', report ls).
Proof.
  induction 1 as [|k m q m1 o rs m2 q2 l m3 q3 Er He Hs IH]; intros fuel F; simpl; auto.
  inversion F; subst. rewrite Er, (loop_complete _ _ _ _ _ _ _ He) by auto. simpl. rewrite IH by auto. reflexivity.
Qed.
Lemma episodes_length k m q ls m' q' : episodes k m q ls m' q' -> List.length ls = k /\ Forall (fun rs => 1 <= List.length rs) ls.
Proof. induction 1 as [|k m q m1 o rs m2 q2 l m3 q3 Er He Hs [IH1 IH2]]; simpl; split; auto. constructor; auto. eapply episode_pos; eauto. Qed.

Lemma evaluate_sound fuel k thr m q m' q' mu l : evaluate mreset mstep predict fuel k thr m q = Done (m', q', mu, l) ->
  exists ls, episodes k m q ls m' q' /\ l = report ls /\ List.length l = k /\ mu = mean (map total ls) /\
  (forall t, thr = Some t -> exists x, mu = Some x /\ (t < x)%Q).
Proof.
  unfold evaluate. destruct (eps fuel k m q) as [[[m1 q1] l1]| |] eqn:E; simpl; try discriminate.
  intros H. destruct (eps_sound _ _ _ _ _ _ _ E) as (ls & H1 & H2).
  destruct (match thr, mean (map fst l1) with None, _ => true | Some t, Some x => Qltb t x | Some _, None => false end) eqn:G; [|discriminate].
  injection H as <- <- <- <-. exists ls. split; auto. split; auto.
  destruct (episodes_length _ _ _ _ _ _ H1) as (L & _). split; [subst l1; unfold report; rewrite map_length; auto|].
  assert (Em : map fst l1 = map total ls) by (subst l1; unfold report; rewrite map_map; auto). rewrite Em in *. split; auto.
  intros t ->. destruct (mean (map total ls)) as [x|]; [|discriminate]. exists x. split; auto. apply Qltb_lt in G. auto.
Qed.
Lemma evaluate_complete k m q ls m' q' : episodes k m q ls m' q' -> forall fuel thr, Forall (fun rs => List.length rs <= fuel) ls ->
  evaluate mreset mstep predict fuel k thr m q =
  match thr with
  | None => Done (m', q', mean (map total ls), report ls)
  | Some t => match mean (map total ls) with
              | Some x => if Qltb t x then Done (m', q', Some x, report ls) else Raise
              | None => Raise
              end
  end.
Proof.
  intros H fuel thr F. unfold evaluate. rewrite (eps_complete _ _ _ _ _ _ H _ F). simpl.
  assert (Em : map fst (report ls) = map total ls) by (unfold report; rewrite map_map; auto). rewrite Em.
  destruct thr as [t|]; auto. destruct (mean (map total ls)) as [x|]; auto.
Qed.
End E.

(* ---------- with a Monitor ---------- *)
Section W.
Context {S A O V P : Type} (ereset : S -> (key -> option V) -> S) (enext : S -> A -> S) (obs_of : S -> O)
        (rew : S -> A -> Q) (done_of : S -> A -> bool) (info_of : S -> A -> key -> option V) (time : nat -> Q)
        (early : bool) (predict : nat -> O -> option P -> A * option P).
Local Notation mon := (@mon S V).
Local Notation ereset' := (env_reset ereset obs_of).
Local Notation estep' := (env_step enext obs_of rew done_of).
Local Notation oreset := (obj_reset ereset obs_of early []).
Local Notation ostep := (obj_step enext obs_of rew done_of info_of time []).
Local Notation vstep := (vec_step ereset enext obs_of rew done_of info_of time early [] []).

Lemma ostep_eq a (m : mon) : m_needs m = false -> exists m', ostep a m = (m', Some (obs_of (enext (m_env m) a), rew (m_env m) a, done_of (m_env m) a)) /\
  m_env m' = enext (m_env m) a /\ m_needs m' = done_of (m_env m) a /\ m_rews m' = m_rews m ++ [rew (m_env m) a] /\
  (if done_of (m_env m) a then m_er m' = m_er m ++ [total (m_rews m')] /\ m_el m' = m_el m ++ [List.length (m_rews m')] else m_er m' = m_er m /\ m_el m' = m_el m).
Proof.
  intros N. unfold obj_step, mon_step. rewrite N. destruct (done_of (m_env m) a) eqn:D; simpl; eexists; (split; [reflexivity|]); simpl; auto 10.
Qed.
Lemma oreset_eq (m : mon) : early = true \/ m_needs m = true -> exists m', oreset m = (m', Some (obs_of (ereset (m_env m) (fun _ => None)))) /\
  m_env m' = ereset (m_env m) (fun _ => None) /\ m_needs m' = false /\ m_rews m' = [] /\ m_er m' = m_er m /\ m_el m' = m_el m.
Proof.
  intros H. unfold obj_reset, mon_reset. assert (G : negb early && negb (m_needs m) = false) by (destruct H as [-> | ->]; [auto|apply andb_false_r]).
  rewrite G. simpl. eexists. split; [reflexivity|]. simpl. auto 10.
Qed.

Lemma mon_episode fuel : forall (m : mon) q o st r n, m_needs m = false -> r = total (m_rews m) -> n = List.length (m_rews m) ->
  match eval_loop estep' predict fuel (m_env m) q o st r n with
  | Done (s', q', r', n') => exists m', eval_loop ostep predict fuel m q o st r n = Done (m', q', r', n') /\ m_env m' = s' /\ m_needs m' = true /\
      m_er m' = m_er m ++ [r'] /\ m_el m' = m_el m ++ [n']
  | Raise => False
  | Fuel => eval_loop ostep predict fuel m q o st r n = Fuel
  end.
Proof.
  induction fuel as [|fuel IH]; intros m q o st r n N Hr Hn; simpl; auto.
  destruct (predict q o st) as [a st'] eqn:Ep. destruct (ostep_eq a m N) as (m1 & -> & E1 & E2 & E3 & E4).
  assert (R1 : (r + rew (m_env m) a)%Q = total (m_rews m1)) by (rewrite E3; unfold total; rewrite fold_left_app; simpl; rewrite Hr; reflexivity).
  assert (N1 : 1 + n = List.length (m_rews m1)) by (rewrite E3, app_length; simpl; lia).
  destruct (done_of (m_env m) a) eqn:D.
  - exists m1. split; auto. destruct E4 as (E4 & E5). rewrite E4, E5, R1. change (Datatypes.S n) with (1 + n). rewrite N1. auto.
  - specialize (IH m1 (Datatypes.S q) (obs_of (enext (m_env m) a)) st' (r + rew (m_env m) a)%Q (Datatypes.S n) E2 R1 N1). rewrite E1 in IH.
    destruct (eval_loop estep' predict fuel (enext (m_env m) a) _ _ _ _ _) as [[[[s' q'] r'] n']| |]; auto.
    destruct IH as (m' & H1 & H2 & H3 & H4 & H5). exists m'. destruct E4 as (E4 & E5). rewrite H4, H5, E4, E5. auto.
Qed.

Lemma mon_evaluates k : forall fuel (m : mon) q, early = true \/ m_needs m = true ->
  match eval_episodes ereset' estep' predict fuel k (m_env m) q with
  | Done (s', q', l) => exists m', eval_episodes oreset ostep predict fuel k m q = Done (m', q', l) /\ m_env m' = s' /\
      m_er m' = m_er m ++ map fst l /\ m_el m' = m_el m ++ map snd l
  | Raise => False
  | Fuel => eval_episodes oreset ostep predict fuel k m q = Fuel
  end.
Proof.
  induction k as [|k IH]; intros fuel m q H; simpl.
  - exists m. rewrite !app_nil_r. auto.
  - destruct (oreset_eq m H) as (m1 & -> & E1 & E2 & E3 & E4 & E5).
    pose proof (mon_episode fuel m1 q (obs_of (ereset (m_env m) (fun _ => None))) None 0%Q 0 E2 ltac:(rewrite E3; reflexivity) ltac:(rewrite E3; reflexivity)) as L.
    rewrite E1 in L. destruct (eval_loop estep' predict fuel (ereset (m_env m) (fun _ => None)) _ _ _ _ _) as [[[[s2 q2] r] n]| |] eqn:El; simpl; auto.
    + destruct L as (m2 & L1 & L2 & L3 & L4 & L5). rewrite L1. simpl. specialize (IH fuel m2 q2 (or_intror L3)). rewrite L2 in IH.
      destruct (eval_episodes ereset' estep' predict fuel k s2 q2) as [[[s3 q3] l]| |]; simpl; auto.
      * destruct IH as (m3 & I1 & I2 & I3 & I4). rewrite I1. simpl. exists m3. split; auto. split; auto.
        rewrite I3, I4, L4, L5, E4, E5, <- !app_assoc. auto.
      * rewrite IH. auto.
    + rewrite L. auto.
Qed.
Lemma monitor_evaluate k fuel thr (m : mon) q : early = true \/ m_needs m = true ->
  match evaluate ereset' estep' predict fuel k thr (m_env m) q with
  | Done (s', q', mu, l) => exists m', evaluate oreset ostep predict fuel k thr m q = Done (m', q', mu, l) /\ m_env m' = s' /\
      m_er m' = m_er m ++ map fst l /\ m_el m' = m_el m ++ map snd l
  | Raise => evaluate oreset ostep predict fuel k thr m q = Raise
  | Fuel => evaluate oreset ostep predict fuel k thr m q = Fuel
  end.
Proof.
  intros H. pose proof (mon_evaluates k fuel m q H) as E. unfold evaluate.
  destruct (eval_episodes ereset' estep' predict fuel k (m_env m) q) as [[[s' q'] l]| |]; simpl.
  - destruct E as (m' & E1 & E2 & E3 & E4). rewrite E1. simpl.
    destruct (match thr, mean (map fst l) with None, _ => true | Some t, Some x => Qltb t x | Some _, None => false end); auto.
    exists m'. auto.
  - contradiction.
  - rewrite E. auto.
Qed.

(** A VecEnv with one Monitor that does not allow early resets. *)
Lemma vec_left fuel : forall (m : mon) q o st r n m' q' r' n', m_needs m = false -> eval_loop vstep predict fuel m q o st r n = Done (m', q', r', n') -> m_needs m' = false.
Proof.
  induction fuel as [|fuel IH]; intros m q o st r n m' q' r' n' N H; simpl in H; [discriminate|].
  destruct (predict q o st) as [a st']. unfold vec_step in H at 1. destruct (ostep_eq a m N) as (m1 & E0 & E1 & E2 & E3 & E4). rewrite E0 in H.
  destruct (done_of (m_env m) a) eqn:D.
  - destruct (oreset_eq m1 (or_intror E2)) as (m2 & F0 & F1 & F2 & F3 & F4 & F5). rewrite F0 in H. injection H as <- <- <- <-. auto.
  - eapply IH; [|exact H]. auto.
Qed.
Lemma vec_raises k fuel thr (m : mon) q : early = false -> m_needs m = true -> 2 <= k ->
  match evaluate oreset vstep predict fuel k thr m q with Done _ => False | _ => True end.
Proof.
  intros He N Hk. destruct k as [|[|k]]; [lia|lia|]. unfold evaluate.
  assert (G : match eval_episodes oreset vstep predict fuel (Datatypes.S (Datatypes.S k)) m q with Done _ => False | _ => True end).
  { cbn [eval_episodes]. destruct (oreset_eq m (or_intror N)) as (m1 & -> & E1 & E2 & E3 & E4 & E5).
    destruct (eval_loop vstep predict fuel m1 q (obs_of (ereset (m_env m) (fun _ => None))) None 0 0) as [[[[m2 q2] r] n]| |] eqn:El; simpl; auto.
    apply vec_left in El; auto. unfold obj_reset at 1, mon_reset at 1. rewrite He, El. simpl. auto. }
  destruct (eval_episodes oreset vstep predict fuel (Datatypes.S (Datatypes.S k)) m q) as [[[m' q'] l]| |]; [contradiction|simpl; auto|simpl; auto].
Qed.
Lemma vec_raises_now k thr (m : mon) q s1 o1 rs m2 q2 fuel : early = false -> m_needs m = true -> 2 <= k ->
  oreset m = (s1, Some o1) -> episode vstep predict s1 q o1 None rs m2 q2 -> List.length rs <= fuel ->
  evaluate oreset vstep predict fuel k thr m q = Raise.
Proof.
  intros He N Hk Er Ep Hf. pose proof (vec_raises k fuel thr m q He N Hk) as V0.
  destruct k as [|[|k]]; [lia|lia|]. unfold evaluate. cbn [eval_episodes]. rewrite Er, (loop_complete _ _ _ _ _ _ _ _ _ Ep) by auto. simpl.
  assert (El := loop_complete _ _ _ _ _ _ _ _ _ Ep fuel 0%Q 0 Hf).
  assert (N1 : m_needs s1 = false). { destruct (oreset_eq m (or_intror N)) as (m1 & E0 & _ & E2 & _). rewrite E0 in Er. injection Er as <- _. auto. }
  pose proof (vec_left _ _ _ _ _ _ _ _ _ _ _ N1 El) as N2. unfold obj_reset at 1, mon_reset at 1. rewrite He, N2. simpl. auto.
Qed.

(** With early resets allowed the rewards reported are those the Monitor notes. *)
Lemma vec_episode fuel : early = true -> forall (m : mon) q o st r n m' q' r' n', m_needs m = false -> r = total (m_rews m) -> n = List.length (m_rews m) ->
  eval_loop vstep predict fuel m q o st r n = Done (m', q', r', n') -> m_er m' = m_er m ++ [r'] /\ m_el m' = m_el m ++ [n'].
Proof.
  intros He. induction fuel as [|fuel IH]; intros m q o st r n m' q' r' n' N Hr Hn H; simpl in H; [discriminate|].
  destruct (predict q o st) as [a st']. unfold vec_step in H at 1. destruct (ostep_eq a m N) as (m1 & E0 & E1 & E2 & E3 & E4). rewrite E0 in H.
  assert (R1 : (r + rew (m_env m) a)%Q = total (m_rews m1)) by (rewrite E3; unfold total; rewrite fold_left_app; simpl; rewrite Hr; reflexivity).
  assert (N1 : Datatypes.S n = List.length (m_rews m1)) by (rewrite E3, app_length; simpl; lia).
  destruct (done_of (m_env m) a) eqn:D.
  - destruct (oreset_eq m1 (or_intror E2)) as (m2 & F0 & F1 & F2 & F3 & F4 & F5). rewrite F0 in H. injection H as <- <- <- <-.
    destruct E4 as (E4 & E5). rewrite F4, F5, E4, E5, R1, N1. auto.
  - destruct E4 as (E4 & E5). rewrite <- E4, <- E5. eapply (IH m1); [| | |exact H]; auto.
Qed.
Lemma vec_evaluates k : early = true -> forall fuel (m : mon) q m' q' l, eval_episodes oreset vstep predict fuel k m q = Done (m', q', l) ->
  m_er m' = m_er m ++ map fst l /\ m_el m' = m_el m ++ map snd l.
Proof.
  intros He. induction k as [|k IH]; intros fuel m q m' q' l H; cbn [eval_episodes] in H.
  - injection H as <- <- <-. simpl. rewrite !app_nil_r. auto.
  - destruct (oreset_eq m (or_introl He)) as (m1 & E0 & E1 & E2 & E3 & E4 & E5). rewrite E0 in H.
    destruct (eval_loop vstep predict fuel m1 q (obs_of (ereset (m_env m) (fun _ => None))) None 0 0) as [[[[m2 q2] r] n]| |] eqn:El; simpl in H; try discriminate.
    destruct (eval_episodes oreset vstep predict fuel k m2 q2) as [[[m3 q3] l']| |] eqn:Ee; simpl in H; try discriminate. injection H as <- <- <-.
    destruct (vec_episode fuel He _ _ _ _ _ _ _ _ _ _ E2 ltac:(rewrite E3; reflexivity) ltac:(rewrite E3; reflexivity) El) as (V1 & V2).
    destruct (IH _ _ _ _ _ _ Ee) as (W1 & W2). rewrite W1, W2, V1, V2, E4, E5, <- !app_assoc. auto.
Qed.
Lemma vec_evaluate k thr fuel (m : mon) q m' q' mu l : early = true -> evaluate oreset vstep predict fuel k thr m q = Done (m', q', mu, l) ->
  m_er m' = m_er m ++ map fst l /\ m_el m' = m_el m ++ map snd l.
Proof.
  intros He. unfold evaluate. destruct (eval_episodes oreset vstep predict fuel k m q) as [[[m1 q1] l1]| |] eqn:E; simpl; try discriminate.
  destruct (match thr, mean (map fst l1) with None, _ => true | Some t, Some x => Qltb t x | Some _, None => false end); [|discriminate].
  intros H. injection H as <- <- <- <-. eapply vec_evaluates; eauto.
Qed.
End W.

(** A keyword with the name of a column of the Monitor replaces the column. *)
Lemma mon_reserved (S A O V : Type) (ereset : S -> (key -> option V) -> S) (enext : S -> A -> S) (obs_of : S -> O) rew done_of info_of time early rkw ikw s cs m xs :
  In KR rkw -> session ereset enext obs_of rew done_of info_of time early rkw ikw cs (new_mon s) = (m, xs) -> smooth xs ->
  Forall2 (fun e row => exists v, fst (fst e) KR = Some v /\ dget row KR = Some (Other v)) (finished (fun _ => None) [] (combine cs xs)) (m_rows m).
Proof.
  intros K E Sm. eapply Forall2_impl; [|eapply mon_log; eassumption]. intros [[kw rs] info] row R. destruct R as [R _]. exact (R KR K).
Qed.
