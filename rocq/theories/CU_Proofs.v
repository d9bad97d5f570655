(** Lemmas for C128. *)
From Coq Require Import ZArith Ascii String List Bool Lia Permutation DecimalString DecimalZ DecimalFacts FinFun.
From Verif Require Import CU_Model CU_Spec.
Import ListNotations.
Open Scope list_scope.
Open Scope Z_scope.

Lemma str_inj a b : str a = str b -> a = b.
Proof.
  unfold str. intros H. assert (E : NilZero.int_of_string (NilZero.string_of_int (Z.to_int a)) = NilZero.int_of_string (NilZero.string_of_int (Z.to_int b))) by now rewrite H.
  rewrite !NilZero.isi in E; try (destruct a as [|p|p], b as [|q|q]; cbn; try discriminate; intros Q; injection Q as Q; revert Q; apply DecimalPos.Unsigned.to_uint_nonnil).
  - injection E as E. now apply DecimalZ.to_int_inj.
Qed.
Lemma append_length a b : String.length (a ++ b) = (String.length a + String.length b)%nat.
Proof. induction a as [|c a IH]; [reflexivity|]. cbn. now rewrite IH. Qed.
Lemma append_cancel_l a : forall b c, (a ++ b)%string = (a ++ c)%string -> b = c.
Proof. induction a as [|x a IH]; intros b c H; [exact H|]. injection H as H. now apply IH. Qed.
Lemma append_cancel e x y : forall a b, (a ++ String x e)%string = (b ++ String y e)%string -> a = b.
Proof.
  intros a b H. assert (L : String.length a = String.length b).
  { apply (f_equal String.length) in H. rewrite !append_length in H. cbn in H. lia. }
  revert b H L. induction a as [|c a IH]; intros [|c' b] H L; try discriminate; [reflexivity|].
  cbn in H. injection H as -> H. f_equal. apply IH; [exact H|now injection L].
Qed.
Lemma str_nonempty r : str r <> EmptyString.
Proof.
  unfold str. destruct (Z.to_int r) as [u|u]; cbn.
  - destruct u; discriminate.
  - discriminate.
Qed.
Lemma join_inj d a b : join d a = join d b -> a = b.
Proof.
  unfold join. destruct d as [|x d]; [auto|]. destruct (ends_in_slash _); intros H.
  - now apply append_cancel_l in H.
  - apply append_cancel_l in H. now injection H.
Qed.
Lemma join_length d p : (d <> EmptyString -> String.length d + String.length p <= String.length (join d p))%nat.
Proof. intros N. unfold join. destruct d as [|x d]; [congruence|]. destruct (ends_in_slash _); rewrite append_length; cbn; lia. Qed.
Lemma nonempty_length s : s <> EmptyString -> (0 < String.length s)%nat.
Proof. destruct s; [congruence|cbn; lia]. Qed.
Lemma join_not_dir d r : d <> EmptyString -> join d (str r) <> d.
Proof.
  intros N E. pose proof (join_length d (str r) N) as L. rewrite E in L. pose proof (nonempty_length _ (str_nonempty r)). lia.
Qed.
Lemma file_longer f p : (String.length p < String.length (monitor_file f p))%nat.
Proof. unfold monitor_file. destruct (isdir f p); rewrite append_length; cbn; lia. Qed.
Lemma file_not_dir d r f : d <> EmptyString -> monitor_file f (join d (str r)) <> d.
Proof.
  intros N E. pose proof (file_longer f (join d (str r))) as L. rewrite E in L. pose proof (join_length d (str r) N). lia.
Qed.
Lemma file_inj f p q : monitor_file f p = monitor_file f q -> p = q.
Proof. unfold monitor_file. destruct (isdir f p), (isdir f q); apply append_cancel. Qed.
Lemma upd_same f p n : upd f p n p = Some n.
Proof. unfold upd. now rewrite String.eqb_refl. Qed.
Lemma upd_other f p n q : q <> p -> upd f p n q = f q.
Proof. intros H. unfold upd. destruct (String.eqb_spec q p); [contradiction|reflexivity]. Qed.

Theorem distinct : forall c f r r', r <> r' -> (seed c <> None -> seed_of c r <> seed_of c r') /\ (monitor_dir c <> None -> file_of c f r <> file_of c f r').
Proof.
  intros c f r r' N. unfold seed_of, file_of. split.
  - destruct (seed c) as [s|]; [|congruence]. intros _ E. injection E as E. lia.
  - destruct (monitor_dir c) as [d|]; [|congruence]. intros _ E. injection E as E. apply file_inj, join_inj, str_inj in E. contradiction.
Qed.

Definition written c f rs p : bool := existsb (fun r => match file_of c f r with Some q => String.eqb p q | None => false end) rs.
Definition warned (c : config) : nat := match env_id c, env_kwargs c with Id _, _ :: _ => 1%nat | _, _ => 0%nat end.

Section Dirs.
Variables (c : config) (f : fs) (d : string).
Hypothesis Hd : monitor_dir c = Some d.
Hypothesis Hne : d <> EmptyString.
Definition like (g : fs) : Prop := (forall e, g d <> Some (File e)) /\ forall q, q <> d -> isdir g q = isdir f q.
Lemma like_file g r : like g -> monitor_file g (join d (str r)) = monitor_file f (join d (str r)).
Proof using Hne. intros [_ L]. unfold monitor_file. rewrite L; [reflexivity|]. now apply join_not_dir. Qed.
Lemma init_step r g : like g -> isdir f (monitor_file f (join d (str r))) = false ->
  exists g', init c r g = Some (g', expected c f r, warned c) /\ like g' /\ g' d = Some Dir /\ g' (monitor_file f (join d (str r))) = Some (File [])
    /\ forall p, p <> d -> p <> monitor_file f (join d (str r)) -> g' p = g p.
Proof using Hd Hne.
  intros L I. unfold init. rewrite Hd. assert (M : exists g1, makedirs d g = Some g1 /\ g1 d = Some Dir /\ forall p, p <> d -> g1 p = g p).
  { unfold makedirs. destruct d as [|x d'] eqn:E; [congruence|]. rewrite <- E in *. destruct L as [L1 L2]. destruct (g d) as [[|e]|] eqn:G.
    - exists g. now repeat split.
    - exfalso. now apply (L1 e).
    - exists (upd g d Dir). split; [reflexivity|]. split; [apply upd_same|]. intros p N. now apply upd_other. }
  destruct M as (g1 & -> & G1 & G2).
  assert (L1 : like g1).
  { split; [rewrite G1; congruence|]. intros q N. unfold isdir. rewrite G2 by exact N. apply L. exact N. }
  rewrite (like_file g1 r L1). set (p := monitor_file f (join d (str r))) in *. assert (PD : p <> d) by (now apply file_not_dir).
  assert (O : open_wt g1 p = Some (upd g1 p (File []))).
  { unfold open_wt. destruct L1 as [_ L1]. specialize (L1 p PD). rewrite I in L1. unfold isdir in L1. destruct (g1 p) as [[|e]|]; [discriminate|reflexivity|reflexivity]. }
  rewrite O. exists (upd g1 p (File [])). split.
  - unfold expected, seed_of, file_of. rewrite Hd. reflexivity.
  - split; [|split; [|split]].
    + split; [intros e; rewrite upd_other by congruence; rewrite G1; congruence|]. intros q N. unfold isdir, upd. destruct (String.eqb_spec q p) as [->|NQ].
      * symmetry. exact I.
      * destruct L1 as [_ L1]. now apply L1.
    + rewrite upd_other by congruence. exact G1.
    + apply upd_same.
    + intros q N1 N2. rewrite upd_other by exact N2. now apply G2.
Qed.
Lemma init_all_dir : forall rs g, like g -> (forall r, In r rs -> isdir f (monitor_file f (join d (str r))) = false) ->
  exists g', init_all c rs g = Some (g', map (expected c f) rs, (length rs * warned c)%nat)
    /\ forall p, g' p = if written c f rs p then Some (File []) else if (String.eqb p d && negb (Nat.eqb (length rs) 0))%bool then Some Dir else g p.
Proof using Hd Hne.
  induction rs as [|r rs IH]; intros g L I.
  - exists g. split; [reflexivity|]. intros p. cbn. now rewrite andb_false_r.
  - destruct (init_step r g L (I r (or_introl eq_refl))) as (g1 & E1 & L1 & D1 & F1 & O1).
    destruct (IH g1 L1) as (g2 & E2 & F2); [intros x H; apply I; now right|].
    exists g2. cbn [init_all]. rewrite E1, E2. split; [reflexivity|]. intros p. rewrite F2.
    assert (WR : written c f (r :: rs) p = (String.eqb p (monitor_file f (join d (str r))) || written c f rs p)%bool).
    { unfold written. cbn [existsb]. unfold file_of at 1. rewrite Hd. reflexivity. }
    rewrite WR. clear WR. cbn [length Nat.eqb negb map]. rewrite andb_true_r.
    destruct (String.eqb_spec p (monitor_file f (join d (str r)))) as [->|N]; cbn [orb].
    + destruct (written c f rs _); [reflexivity|]. destruct (String.eqb_spec (monitor_file f (join d (str r))) d) as [E|_]; [exfalso; revert E; now apply file_not_dir|].
      cbn [andb]. exact F1.
    + destruct (written c f rs p); [reflexivity|]. destruct (String.eqb_spec p d) as [->|N2]; cbn [andb].
      * rewrite D1. now destruct (negb _).
      * now apply O1.
Qed.
End Dirs.
Lemma init_all_nodir c f : monitor_dir c = None -> forall rs, init_all c rs f = Some (f, map (expected c f) rs, (length rs * warned c)%nat).
Proof.
  intros H. induction rs as [|r rs IH]; [reflexivity|]. cbn [init_all]. unfold init. rewrite H. rewrite IH. cbn [map length Nat.mul].
  replace (expected c f r) with (Env (match env_id c with Id i => Made i | Class => Constructed (env_kwargs c) end) (seed_of c r) (seed_of c r) None (wrapper_class c));
    [reflexivity|]. unfold expected, file_of. now rewrite H.
Qed.
Lemma init_all_is c rs f : usable c f rs ->
  exists g', init_all c rs f = Some (g', map (expected c f) rs, (length rs * warned c)%nat)
    /\ forall p, g' p = if written c f rs p then Some (File [])
        else match monitor_dir c with Some d => if (String.eqb p d && negb (Nat.eqb (length rs) 0))%bool then Some Dir else f p | None => f p end.
Proof.
  intros U. destruct (monitor_dir c) as [d|] eqn:E.
  - destruct (U d E) as (N & D & I). apply (init_all_dir c f d E N).
    + split; [exact D|]. reflexivity.
    + intros r H. apply (I r); [exact H|]. unfold file_of. now rewrite E.
  - exists f. split; [now apply init_all_nodir|]. intros p. assert (W : written c f rs p = false).
    { unfold written. induction rs as [|r rs IH]; [reflexivity|]. cbn. unfold file_of at 1. rewrite E. apply IH. intros d Q. congruence. }
    now rewrite W.
Qed.
Lemma written_perm c f a b p : Permutation a b -> written c f a p = written c f b p.
Proof.
  intros P. unfold written. apply eq_iff_eq_true. rewrite !existsb_exists. split; intros (x & I & H); exists x; (split; [|exact H]).
  - now apply (Permutation_in x P).
  - now apply (Permutation_in x (Permutation_sym P)).
Qed.
Lemma usable_perm c f a b : Permutation a b -> usable c f a -> usable c f b.
Proof.
  intros P U d E. destruct (U d E) as (A & B & C). repeat split; auto. intros r p I. apply C. now apply (Permutation_in r (Permutation_sym P)).
Qed.
Lemma ranks_length n s : 0 <= n -> Z.of_nat (length (ranks n s)) = n.
Proof. intros H. unfold ranks. rewrite map_length, seq_length. lia. Qed.
Lemma ranks_nth n s i : (i < Z.to_nat n)%nat -> nth_error (ranks n s) i = Some (s + Z.of_nat i).
Proof.
  intros H. unfold ranks. rewrite nth_error_map. rewrite (nth_error_nth' _ 0%nat) by (rewrite seq_length; exact H). rewrite seq_nth by exact H. cbn. f_equal. lia.
Qed.
Lemma ranks_in n s r : In r (ranks n s) <-> s <= r < s + n.
Proof.
  unfold ranks. rewrite in_map_iff. split.
  - intros (i & <- & I). apply in_seq in I. lia.
  - intros H. exists (Z.to_nat (r - s)). split; [lia|]. apply in_seq. lia.
Qed.
Lemma make_is c n f : 0 < n -> make_vec_env c n f = init_all c (ranks n (start_index c)) f.
Proof.
  intros H. unfold make_vec_env. destruct (ranks n (start_index c)) eqn:E; [|reflexivity].
  pose proof (ranks_length n (start_index c) ltac:(lia)) as L. rewrite E in L. cbn in L. lia.
Qed.
Lemma written_iff c f rs p : written c f rs p = true <-> exists r, In r rs /\ file_of c f r = Some p.
Proof.
  unfold written. rewrite existsb_exists. split; intros (r & I & H); exists r; (split; [exact I|]).
  - destruct (file_of c f r) as [q|]; [|discriminate]. apply String.eqb_eq in H. now subst.
  - rewrite H. apply String.eqb_refl.
Qed.

Theorem made : forall c n f, 0 < n -> usable c f (ranks n (start_index c)) ->
  exists f' es w, make_vec_env c n f = Some (f', es, w) /\ Z.of_nat (length es) = n
    /\ (forall i, (i < Z.to_nat n)%nat -> nth_error es i = Some (expected c f (start_index c + Z.of_nat i)))
    /\ forall p, ((exists r, start_index c <= r < start_index c + n /\ file_of c f r = Some p) -> f' p = Some (File []))
       /\ (monitor_dir c = Some p -> f' p = Some Dir)
       /\ (monitor_dir c <> Some p -> (forall r, start_index c <= r < start_index c + n -> file_of c f r <> Some p) -> f' p = f p).
Proof.
  intros c n f N U. destruct (init_all_is c _ f U) as (f' & E & F). rewrite make_is by exact N. exists f'. eexists. eexists. split; [exact E|].
  split; [rewrite map_length; apply ranks_length; lia|]. split.
  - intros i I. rewrite nth_error_map, ranks_nth by exact I. reflexivity.
  - intros p. rewrite F. assert (W : written c f (ranks n (start_index c)) p = true <-> exists r, start_index c <= r < start_index c + n /\ file_of c f r = Some p).
    { rewrite written_iff. split; intros (r & A & B); exists r; (split; [now apply ranks_in|exact B]). }
    split; [|split].
    + intros H. apply W in H. now rewrite H.
    + intros H. rewrite H. assert (W2 : written c f (ranks n (start_index c)) p = false).
      { destruct (written c f (ranks n (start_index c)) p) eqn:Q; [|reflexivity]. exfalso. destruct (proj1 W eq_refl) as (r & _ & Q'). clear Q. rename Q' into Q. unfold file_of in Q.
        rewrite H in Q. injection Q as Q. destruct (U p H) as (NE & _). now apply (file_not_dir p r f NE). }
      rewrite W2, String.eqb_refl. destruct (Nat.eqb_spec (length (ranks n (start_index c))) 0) as [Z|Z]; [|reflexivity].
      pose proof (ranks_length n (start_index c) ltac:(lia)). lia.
    + intros H1 H2. destruct (written c f (ranks n (start_index c)) p) eqn:Q.
      * exfalso. destruct (proj1 W eq_refl) as (r & R1 & R2). now apply (H2 r).
      * destruct (monitor_dir c) as [d|]; [|reflexivity]. destruct (String.eqb_spec p d); [congruence|]. reflexivity.
Qed.
Theorem any_order : forall c n f order, 0 < n -> usable c f (ranks n (start_index c)) -> Permutation order (ranks n (start_index c)) ->
  exists f1 es1 w f2 es2, make_vec_env c n f = Some (f1, es1, w) /\ init_all c order f = Some (f2, es2, w)
    /\ (forall p, f1 p = f2 p) /\ es2 = map (expected c f) order.
Proof.
  intros c n f order N U P. destruct (init_all_is c _ f U) as (f1 & E1 & F1).
  destruct (init_all_is c order f (usable_perm c f _ _ (Permutation_sym P) U)) as (f2 & E2 & F2).
  rewrite make_is by exact N. exists f1. eexists. eexists. exists f2. eexists. split; [exact E1|]. rewrite (Permutation_length P) in E2. split; [exact E2|]. split; [|reflexivity].
  intros p. rewrite F1, F2, (written_perm c f _ _ p P), (Permutation_length P). reflexivity.
Qed.
Theorem none_raises : forall c n f, n <= 0 -> make_vec_env c n f = None.
Proof. intros c n f H. unfold make_vec_env, ranks. replace (Z.to_nat n) with 0%nat by lia. reflexivity. Qed.
Theorem dir_raises : forall c n f d, 0 < n -> monitor_dir c = Some d -> d = EmptyString \/ (exists e, f d = Some (File e)) -> make_vec_env c n f = None.
Proof.
  intros c n f d N E H. rewrite make_is by exact N. destruct (ranks n (start_index c)) as [|r rs] eqn:R.
  { pose proof (ranks_length n (start_index c) ltac:(lia)) as L. rewrite R in L. cbn in L. lia. }
  cbn [init_all]. unfold init. rewrite E. assert (M : makedirs d f = None).
  { unfold makedirs. destruct H as [->|(e & H)]; [reflexivity|]. destruct d; [reflexivity|]. now rewrite H. }
  now rewrite M.
Qed.
Theorem kwargs_ignored : forall i s st md wc k k' n f f' es w, 0 < n ->
  make_vec_env (Config (Id i) s st md wc k) n f = Some (f', es, w) ->
  exists w', make_vec_env (Config (Id i) s st md wc k') n f = Some (f', es, w') /\ (k' <> [] -> Z.of_nat w' = n) /\ (k' = [] -> w' = 0%nat).
Proof.
  intros i s st md wc k k' n f f' es w N. rewrite !make_is by exact N. cbn [start_index]. intros H. set (c := Config (Id i) s st md wc k) in *. set (c' := Config (Id i) s st md wc k').
  assert (G : forall rs f f' es w, init_all c rs f = Some (f', es, w) -> init_all c' rs f = Some (f', es, (length rs * warned c')%nat)).
  { clear. induction rs as [|r rs IH]; intros f f' es w H; [cbn in *; congruence|]. cbn [init_all] in *. unfold init in *. cbn [monitor_dir c c' env_id seed env_kwargs wrapper_class] in *.
    unfold c, c' in *. cbn in *. destruct md as [d|].
    - destruct (makedirs d f) as [f1|]; [|discriminate]. destruct (open_wt f1 _) as [f2|]; [|discriminate].
      destruct (init_all _ rs f2) as [[[f3 es3] w3]|] eqn:E in H; [|discriminate]. rewrite (IH _ _ _ _ E). injection H as <- <- _. reflexivity.
    - destruct (init_all _ rs f) as [[[f3 es3] w3]|] eqn:E in H; [|discriminate]. rewrite (IH _ _ _ _ E). injection H as <- <- _. reflexivity. }
  eexists. split; [exact (G _ _ _ _ _ H)|]. pose proof (ranks_length n st ltac:(lia)) as L. unfold warned, c'. cbn. split.
  - intros K. destruct k'; [congruence|]. lia.
  - intros ->. lia.
Qed.
Theorem atari_kinds : forall n u, atari_kind n u = SubprocVecEnv <-> u = true /\ n <> 1.
Proof.
  intros n u. unfold atari_kind. destruct (Z.eqb_spec n 1), u; cbn; split; try discriminate; try (intros [A B]; congruence); auto.
Qed.
Theorem atari_made : forall id sd dir rank f f' e, atari_init id sd dir rank f = Some (f', e) -> origin e = Made id /\ seeded e = Some (sd + rank) /\ space_seeded e = None.
Proof.
  intros id sd dir rank f f' e. unfold atari_init. destruct dir as [d|]; [|intros [= <- <-]; auto].
  destruct (open_wt f _); [|discriminate]. intros [= <- <-]. auto.
Qed.
Theorem mujoco_same : forall s d r r', 0 <= r -> 0 <= r' -> r <> r' -> 0 <= s -> s + 10000 * r < 2 ^ 32 -> s + 10000 * r' < 2 ^ 32 ->
  exists g g' p, make_mujoco_env (Installed true r) s (Some d) = Some (g, s, p) /\ make_mujoco_env (Installed true r') s (Some d) = Some (g', s, p) /\ g <> g'.
Proof.
  intros s d r r' R R' N S B B'. unfold make_mujoco_env, mpi_rank_or_zero, set_global_seeds.
  replace (0 <=? s + 10000 * r) with true by (symmetry; apply Z.leb_le; lia). replace (s + 10000 * r <? 2 ^ 32) with true by (symmetry; apply Z.ltb_lt; lia).
  replace (0 <=? s + 10000 * r') with true by (symmetry; apply Z.leb_le; lia). replace (s + 10000 * r' <? 2 ^ 32) with true by (symmetry; apply Z.ltb_lt; lia).
  cbn [andb]. exists (s + 10000 * r), (s + 10000 * r'), (join d "0"). repeat split. lia.
Qed.
Theorem mujoco_raises : forall s d r m, make_mujoco_env (Installed false r) s d = None /\ make_mujoco_env m s None = None.
Proof.
  intros s d r m. split; [reflexivity|]. unfold make_mujoco_env. destruct (mpi_rank_or_zero m); [|reflexivity]. now destruct (set_global_seeds _).
Qed.
