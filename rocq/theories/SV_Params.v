(** Proofs about parameters, file names, hyperparameters and environments. *)
From Coq Require Import Ascii String List Arith ZArith Bool Lia Permutation.
From Verif Require Import SV_Model SV_Spec.
Import ListNotations.
Open Scope string_scope.

Section Params.
  Context {V : Type}.
  Implicit Types l vars given : list (string * V).
  Lemma dget_in : forall l n v, NoDup (map fst l) -> In (n, v) l -> dget n l = Some v.
  Proof.
    induction l as [|[k x] l IH]; intros n v N I; [destruct I|]. cbn in N. apply NoDup_cons_iff in N. destruct N as [N1 N2]. unfold dget. cbn [find fst]. destruct (n =? k) eqn:E.
    - apply String.eqb_eq in E. subst. destruct I as [I|I]; [injection I as ->; reflexivity|]. exfalso. apply N1. exact (in_map fst _ _ I).
    - destruct I as [I|I]; [injection I as -> ->; rewrite String.eqb_refl in E; discriminate|]. now apply IH.
  Qed.
  Lemma dget_some : forall l n v, dget n l = Some v -> In (n, v) l.
  Proof. intros l n v H. unfold dget in H. destruct (find _ l) as [[k x]|] eqn:E; [|discriminate]. injection H as ->. apply find_some in E. destruct E as [I E]. apply String.eqb_eq in E. cbn in E. now subst. Qed.
  Lemma dget_none : forall l n, dget n l = None <-> ~ In n (map fst l).
  Proof.
    intros l n. unfold dget. destruct (find _ l) as [[k x]|] eqn:E.
    - apply find_some in E. destruct E as [I E]. apply String.eqb_eq in E. cbn in E. subst. split; [discriminate|]. intros H. exfalso. apply H. exact (in_map fst _ _ I).
    - split; [|reflexivity]. intros _ H. apply in_map_iff in H. destruct H as ([k x] & A & I). cbn in A. subst. apply (find_none _ _ E) in I. cbn in I. rewrite String.eqb_refl in I. discriminate.
  Qed.
  Lemma params_back : forall l, NoDup (map fst l) -> bytes_to_params (fst (stored l)) (snd (stored l)) = Some l.
  Proof.
    intros l N. cbn. assert (G : forall s, (forall x, In x s -> In x l) -> bytes_to_params l (map fst s) = Some s); [|now apply G].
    induction s as [|[n v] s IH]; intros H; [reflexivity|]. cbn [map fst bytes_to_params]. rewrite (dget_in l n v N) by (apply H; now left). rewrite IH; [reflexivity|]. intros x X. apply H. now right.
  Qed.
  Lemma existsb_names : forall n l, existsb (fun x => n =? fst x) l = true <-> In n (map fst l).
  Proof.
    intros n l. rewrite existsb_exists, in_map_iff. split; intros (x & A & B); exists x; [|split; [exact B|]]; [apply String.eqb_eq in B; now split|]. apply String.eqb_eq. congruence.
  Qed.
  Lemma subset_names : forall l l', forallb (fun g => existsb (fun x => fst g =? fst x) l') l = true <-> forall n, In n (map fst l) -> In n (map fst l').
  Proof.
    intros l l'. rewrite forallb_forall. split.
    - intros H n I. apply in_map_iff in I. destruct I as (x & <- & I). apply existsb_names. now apply H.
    - intros H x I. apply existsb_names, H. now apply in_map.
  Qed.
  (** When a dictionary is loaded, and what it does. *)
  Lemma load_dict_iff : forall vars given exact_match,
    (exists r, load_dict vars given exact_match = Some r) <->
    (forall n, In n (map fst given) -> In n (map fst vars)) /\ (exact_match = true -> forall n, In n (map fst vars) -> In n (map fst given)).
  Proof.
    intros vars given ex. unfold load_dict. destruct (forallb _ given) eqn:A.
    - pose proof (proj1 (subset_names _ _) A) as A'. destruct (ex && negb (forallb _ vars)) eqn:B.
      + split; [intros [r E]; discriminate|]. intros [_ H]. apply andb_true_iff in B. destruct B as [-> B]. apply negb_true_iff in B. exfalso. rewrite (proj2 (subset_names vars given)) in B; [discriminate|]. now apply H.
      + split; [|intros; now eexists]. intros _. split; [exact A'|]. intros ->. cbn in B. apply negb_false_iff in B. now apply subset_names.
    - split; [intros [r E]; discriminate|]. intros [H _]. exfalso. rewrite (proj2 (subset_names given vars) H) in A. discriminate.
  Qed.
  Lemma load_dict_eq : forall vars given ex r, load_dict vars given ex = Some r -> r = map (fun x => (fst x, match dget (fst x) given with Some v => v | None => snd x end)) vars.
  Proof. intros vars given ex r H. unfold load_dict in H. destruct (forallb _ given); [|discriminate]. destruct (ex && _); [discriminate|]. now injection H as <-. Qed.
  Lemma load_dict_names : forall vars given ex r, load_dict vars given ex = Some r -> map fst r = map fst vars.
  Proof. intros vars given ex r H. rewrite (load_dict_eq _ _ _ _ H), map_map. now apply map_ext. Qed.
  Lemma load_dict_values : forall vars given ex r, NoDup (map fst given) -> load_dict vars given ex = Some r ->
    (forall n v, In (n, v) given -> In (n, v) r) /\ (forall n v, In (n, v) vars -> ~ In n (map fst given) -> In (n, v) r).
  Proof.
    intros vars given ex r N H. pose proof (load_dict_eq _ _ _ _ H) as E. assert (A : exists r, load_dict vars given ex = Some r) by now exists r. apply load_dict_iff in A. destruct A as [A _]. subst r. split.
    - intros n v I. specialize (A n (in_map fst _ _ I)). apply in_map_iff in A. destruct A as (x & X & Y). apply in_map_iff. exists x. split; [|exact Y]. rewrite X. now rewrite (dget_in given n v N I).
    - intros n v I O. apply in_map_iff. exists (n, v). split; [|exact I]. cbn [fst snd]. apply dget_none in O. now rewrite O.
  Qed.
  Lemma load_same : forall vars, NoDup (map fst vars) -> load_dict vars vars true = Some vars.
  Proof.
    intros vars N. assert (A : exists r, load_dict vars vars true = Some r) by (apply load_dict_iff; auto). destruct A as [r A]. rewrite A. f_equal. rewrite (load_dict_eq _ _ _ _ A).
    transitivity (map (fun x => x) vars); [|apply map_id]. apply map_ext_in. intros [n v] I. cbn [fst snd]. now rewrite (dget_in vars n v N I).
  Qed.
  Lemma combine_names : forall (l : list string) (g : list V), (List.length l <= List.length g)%nat -> map fst (combine l g) = l.
  Proof. induction l as [|x l IH]; intros [|v g] H; cbn in *; try reflexivity; try lia. f_equal. apply IH. lia. Qed.
  Lemma combine_firstn : forall (l : list string) (g : list V), combine l (firstn (List.length l) g) = combine l g.
  Proof. induction l as [|x l IH]; intros [|v g]; cbn; try reflexivity. now rewrite IH. Qed.
  Lemma load_list_eq : forall vars (given : list V) ex, NoDup (map fst vars) -> (List.length vars <= List.length given)%nat ->
    load_list vars given ex = Some (combine (map fst vars) (firstn (List.length vars) given)).
  Proof.
    intros vars given ex N L. unfold load_list. replace (List.length given <? List.length vars)%nat with false by (symmetry; apply Nat.ltb_ge; lia).
    assert (M : map fst (combine (map fst vars) given) = map fst vars) by (apply combine_names; now rewrite map_length).
    assert (A : exists r, load_dict vars (combine (map fst vars) given) ex = Some r) by (apply load_dict_iff; rewrite M; auto). destruct A as [r A]. rewrite A. f_equal. rewrite (load_dict_eq _ _ _ _ A).
    rewrite <- (map_length fst vars), combine_firstn.
    assert (G : forall (vs : list (string * V)) (d : list (string * V)), NoDup (map fst d) -> map fst vs = map fst d -> map (fun x => (fst x, match dget (fst x) d with Some v => v | None => snd x end)) vs = d).
    { intros vs d Nd E. assert (T : forall vs s, map fst vs = map fst s -> (forall x, In x s -> In x d) -> map (fun x => (fst x, match dget (fst x) d with Some v => v | None => snd x end)) vs = s); [|now apply T].
      induction vs0 as [|[n x] vs0 IH]; intros [|[n' y] s] Es Hs; cbn in Es; try discriminate; [reflexivity|]. injection Es as -> Es. cbn [map fst snd]. rewrite (dget_in d n' y Nd) by (apply Hs; now left). f_equal. apply IH; [exact Es|]. intros z Z. apply Hs. now right. }
    apply G; [now rewrite M|now rewrite M].
  Qed.
  Lemma load_list_short : forall vars (given : list V) ex, (List.length given < List.length vars)%nat -> load_list vars given ex = None.
  Proof. intros. unfold load_list. now rewrite (proj2 (Nat.ltb_lt _ _) H). Qed.
  Lemma list_longer_shorter : forall vars (given more : list V) ex, NoDup (map fst vars) ->
    (List.length given = List.length vars -> load_list vars (given ++ more)%list ex = Some (combine (map fst vars) given)) /\
    ((List.length given < List.length vars)%nat -> load_list vars given ex = None).
  Proof.
    intros vars given more ex N. split; [|apply load_list_short]. intros L. rewrite (load_list_eq vars _ ex N) by (rewrite app_length; lia). rewrite <- L, firstn_app, firstn_all, Nat.sub_diag. cbn [firstn]. now rewrite app_nil_r.
  Qed.
End Params.

(** ** File names *)
Lemma until_slash_split : forall r, exists d, r = (until_slash r ++ d)%list /\ ~ In slash (until_slash r) /\ (d = [] \/ exists d', d = slash :: d').
Proof.
  induction r as [|c r (d & E & N & D)]; [exists []; cbn; auto|]. cbn [until_slash]. destruct (Ascii.eqb c slash) eqn:C.
  - apply Ascii.eqb_eq in C. subst. exists (slash :: r). split; [reflexivity|]. split; [intros []|]. right. now exists r.
  - exists d. split; [cbn; now rewrite <- E|]. split; [|exact D]. intros [X|X]; [|contradiction]. subst. rewrite Ascii.eqb_refl in C. discriminate.
Qed.
Lemma until_slash_app : forall a d, ~ In slash a -> (d = [] \/ exists d', d = slash :: d') -> until_slash (a ++ d)%list = a.
Proof.
  induction a as [|c a IH]; intros d N D.
  - destruct D as [->|(d' & ->)]; reflexivity.
  - cbn [app until_slash]. destruct (Ascii.eqb c slash) eqn:C; [apply Ascii.eqb_eq in C; subst; exfalso; apply N; now left|]. f_equal. apply IH; [|exact D]. intros X. apply N. now right.
Qed.
Lemma before_dot_some : forall r s, before_dot r = Some s -> exists e, r = (e ++ dot :: s)%list /\ ~ In dot e.
Proof.
  induction r as [|c r IH]; intros s H; cbn in H; [discriminate|]. destruct (Ascii.eqb c dot) eqn:C.
  - apply Ascii.eqb_eq in C. injection H as <-. subst. exists []. auto.
  - destruct (IH s H) as (e & -> & N). exists (c :: e). split; [reflexivity|]. intros [X|X]; [|contradiction]. subst. rewrite Ascii.eqb_refl in C. discriminate.
Qed.
Lemma before_dot_app : forall e s, ~ In dot e -> before_dot (e ++ dot :: s)%list = Some s.
Proof.
  induction e as [|c e IH]; intros s N; [reflexivity|]. cbn [app before_dot]. destruct (Ascii.eqb c dot) eqn:C; [apply Ascii.eqb_eq in C; subst; exfalso; apply N; now left|]. apply IH. intros X. apply N. now right.
Qed.
Lemma all_dots : forall r : chars, forallb (fun c => Ascii.eqb c dot) r = false <-> exists c, In c r /\ c <> dot.
Proof.
  induction r as [|c r IH]; cbn [forallb].
  - split; [discriminate|]. intros (c & [] & _).
  - destruct (Ascii.eqb c dot) eqn:C; cbn [andb].
    + rewrite IH. apply Ascii.eqb_eq in C. subst. split; intros (c & I & N); exists c; split; auto; [now right|]. destruct I as [<-|I]; [contradiction|exact I].
    + split; [|reflexivity]. intros _. exists c. split; [now left|]. intros ->. rewrite Ascii.eqb_refl in C. discriminate.
Qed.
Lemma ext_iff : forall p, no_ext p = false <-> has_ext p.
Proof.
  intros p. unfold no_ext. split.
  - intros H. destruct (before_dot (until_slash (rev p))) as [s|] eqn:B; [|discriminate]. apply before_dot_some in B. destruct B as (e & E & N). apply all_dots in H. destruct H as (c & I & C).
    destruct (until_slash_split (rev p)) as (d & S1 & S2 & S3). exists (rev d), (rev s), (rev e). split.
    { rewrite <- (rev_involutive p), S1, E, !rev_app_distr. cbn [rev]. now rewrite <- !app_assoc. }
    split. { destruct S3 as [->|(d' & ->)]; [now left|right]. exists (rev d'). reflexivity. }
    rewrite E in S2. split; [|split; [|split]].
    + rewrite <- in_rev. intros X. apply S2. apply in_or_app. right. now right.
    + rewrite <- in_rev. intros X. apply S2. apply in_or_app. now left.
    + now rewrite <- in_rev.
    + exists c. now rewrite <- in_rev.
  - intros (dir & stem & e & -> & D & S1 & S2 & S3 & (c & C1 & C2)). rewrite !rev_app_distr. cbn [rev]. rewrite <- app_assoc. cbn [app].
    replace ((rev e ++ [dot]) ++ rev stem ++ rev dir)%list with ((rev e ++ dot :: rev stem) ++ rev dir)%list by (rewrite <- !app_assoc; reflexivity) || idtac.
    replace (rev e ++ [dot] ++ rev stem ++ rev dir)%list with ((rev e ++ dot :: rev stem) ++ rev dir)%list by (rewrite <- !app_assoc; reflexivity) || idtac.
    assert (U : until_slash ((rev e ++ dot :: rev stem) ++ rev dir)%list = (rev e ++ dot :: rev stem)%list).
    { apply until_slash_app.
      - intros X. apply in_app_or in X. destruct X as [X|[X|X]]; [rewrite <- in_rev in X; contradiction|discriminate|rewrite <- in_rev in X; contradiction].
      - destruct D as [->|(d & ->)]; [now left|right]. exists (rev d). now rewrite rev_app_distr. }
    rewrite <- app_assoc in U. cbn [app] in U. rewrite <- ?app_assoc. cbn [app]. rewrite U. rewrite before_dot_app by now rewrite <- in_rev. apply all_dots. exists c. now rewrite <- in_rev.
Qed.
Lemma file_read : forall (ex : chars -> bool) p, ex (save_name p) = true -> has_ext p \/ ex p = false -> load_name ex p = Some (save_name p).
Proof.
  intros ex p E H. unfold load_name, save_name in *. destruct (no_ext p) eqn:N.
  - destruct H as [H|H]; [apply ext_iff in H; congruence|]. now rewrite H, E.
  - now rewrite E.
Qed.
Lemma file_shadowed : forall (ex : chars -> bool) p, ~ has_ext p -> ex p = true -> load_name ex p = Some p /\ save_name p <> p.
Proof.
  intros ex p H E. unfold load_name. rewrite E. split; [reflexivity|]. unfold save_name. destruct (no_ext p) eqn:N; [|apply ext_iff in N; contradiction].
  intros X. apply (f_equal (@List.length ascii)) in X. rewrite app_length in X. cbn in X. lia.
Qed.

(** ** Hyperparameters *)
Section Hyper.
  Context {V : Type}.
  Implicit Types m fresh : attrs V.
  Lemma update_out : forall (d : list (string * option V)) m n, ~ In n (map fst d) -> update m d n = m n.
  Proof.
    unfold update. induction d as [|[k v] d IH]; intros m n H; [reflexivity|]. cbn [fold_left]. rewrite IH by (intros X; apply H; now right). cbn [fst snd].
    destruct (n =? k) eqn:E; [|reflexivity]. apply String.eqb_eq in E. subst. exfalso. apply H. now left.
  Qed.
  Lemma update_in : forall (d : list (string * option V)) m n v, (forall w, In (n, w) d -> w = v) -> In (n, v) d -> update m d n = v.
  Proof.
    unfold update. induction d as [|[k w] d IH]; intros m n v U I; [destruct I|]. cbn [fold_left fst snd]. destruct (in_dec string_dec n (map fst d)) as [J|J].
    - apply in_map_iff in J. destruct J as ([k' w'] & E & J). cbn in E. subst k'. apply IH; [intros; apply U; now right|]. replace v with w'; [exact J|]. apply U. now right.
    - change (update (fun n0 => if n0 =? k then w else m n0) d n = v). rewrite update_out by exact J. destruct I as [I|I]; [injection I as -> ->; now rewrite String.eqb_refl|]. exfalso. apply J. exact (in_map fst _ _ I).
  Qed.
  Lemma saved_names : forall a m, map fst (save_data a m) = saved a.
  Proof. intros. unfold save_data. rewrite map_map. cbn. apply map_id. Qed.
  Lemma update_saved : forall a m fresh n, update fresh (save_data a m) n = if in_dec string_dec n (saved a) then m n else fresh n.
  Proof.
    intros a m fresh n. destruct (in_dec string_dec n (saved a)) as [I|I].
    - apply update_in; unfold save_data.
      + intros w W. apply in_map_iff in W. destruct W as (x & E & _). injection E as -> <-. reflexivity.
      + apply in_map_iff. now exists n.
    - apply update_out. now rewrite saved_names.
  Qed.
  Lemma loaded_plain : forall (eqb : V -> V -> bool) a m fresh, load_attrs eqb fresh (save_data a m) [] = Some (update (update fresh (save_data a m)) []). Proof. reflexivity. Qed.
  Lemma hyper_back : forall (eqb : V -> V -> bool) a m fresh, exists m', load_attrs eqb fresh (save_data a m) [] = Some m' /\
    (forall n, In n (arguments a) -> ~ In n (lost a) -> m' n = m n) /\ (forall n, In n (lost a) -> m' n = fresh n) /\ m' "num_timesteps" = fresh "num_timesteps".
  Proof.
    intros eqb a m fresh. rewrite loaded_plain. eexists. split; [reflexivity|]. cbn [update fold_left]. change (update (update fresh (save_data a m)) []) with (update fresh (save_data a m)). split; [|split].
    - intros n I L. rewrite update_saved. destruct (in_dec string_dec n (saved a)) as [J|J]; [reflexivity|]. exfalso.
      assert (G : forall n, In n (arguments a) -> In n (lost a) \/ In n (saved a)).
      { apply Forall_forall. destruct a; repeat (constructor; [first [left; solve [cbn; tauto]|right; solve [cbn; tauto]]|]); constructor. }
      destruct (G n I); contradiction.
    - intros n I. rewrite update_saved. destruct (in_dec string_dec n (saved a)) as [J|J]; [|reflexivity]. exfalso.
      assert (G : Forall (fun n => if in_dec string_dec n (saved a) then False else True) (lost a)) by (destruct a; vm_compute; repeat constructor).
      rewrite Forall_forall in G. specialize (G n I). destruct (in_dec string_dec n (saved a)); [exact G|contradiction].
    - rewrite update_saved. destruct (in_dec string_dec "num_timesteps" (saved a)) as [J|J]; [|reflexivity]. exfalso. revert J. destruct a; vm_compute; intuition discriminate.
  Qed.
  Lemma kwargs_set : forall (eqb : V -> V -> bool) a m fresh kwargs, NoDup (map fst kwargs) -> ~ In "policy_kwargs" (map fst kwargs) ->
    exists m', load_attrs eqb fresh (save_data a m) kwargs = Some m' /\ (forall n v, In (n, v) kwargs -> m' n = v) /\
      (forall n, ~ In n (map fst kwargs) -> m' n = if in_dec string_dec n (saved a) then m n else fresh n).
  Proof.
    intros eqb a m fresh kwargs N P. unfold load_attrs.
    assert (F : find (fun x => fst x =? "policy_kwargs") kwargs = None).
    { destruct (find _ kwargs) as [[k v]|] eqn:E; [|reflexivity]. apply find_some in E. destruct E as [I E]. apply String.eqb_eq in E. cbn in E. subst. exfalso. apply P. exact (in_map fst _ _ I). }
    rewrite F. eexists. split; [reflexivity|]. split.
    - intros n v I. apply update_in; [|exact I]. intros w W. clear - N I W. induction kwargs as [|[k x] l IH]; [destruct I|]. cbn in N. apply NoDup_cons_iff in N. destruct N as [N1 N2].
      destruct I as [I|I], W as [W|W]; try congruence; try (now apply IH); injection I as -> -> || injection W as -> ->; exfalso; apply N1; first [exact (in_map fst _ _ W)|exact (in_map fst _ _ I)].
    - intros n O. rewrite update_out by exact O. apply update_saved.
  Qed.
  Lemma kwargs_arguments : forall (eqb : V -> V -> bool) a m fresh kwargs, NoDup (map fst kwargs) -> ~ In "policy_kwargs" (map fst kwargs) ->
    exists m', load_attrs eqb fresh (save_data a m) kwargs = Some m' /\ (forall n v, In (n, v) kwargs -> m' n = v) /\
      (forall n, In n (arguments a) -> ~ In n (lost a) -> ~ In n (map fst kwargs) -> m' n = m n).
  Proof.
    intros eqb a m fresh kwargs N P. destruct (kwargs_set eqb a m fresh kwargs N P) as (m' & A & B & C). exists m'. split; [exact A|]. split; [exact B|]. intros n I L K. rewrite (C n K).
    destruct (hyper_back eqb a m fresh) as (m2 & A2 & B2 & _). transitivity (m2 n); [|exact (B2 n I L)]. rewrite loaded_plain in A2. injection A2 as <-. symmetry. exact (update_saved a m fresh n).
  Qed.
  Lemma policy_kwargs_checked : forall (eqb : V -> V -> bool) a m fresh v w, m "policy_kwargs" = Some w ->
    (load_attrs eqb fresh (save_data a m) [("policy_kwargs", Some v)] = None <-> eqb v w = false).
  Proof.
    intros eqb a m fresh v w M. unfold load_attrs. cbn [find fst]. rewrite String.eqb_refl.
    assert (F : find (fun x => fst x =? "policy_kwargs") (save_data a m) = Some ("policy_kwargs", Some w)) by (destruct a; cbn; now rewrite M).
    rewrite F. destruct (eqb v w); split; intros H; congruence.
  Qed.
End Hyper.

(** ** Environments *)
Lemma construct_iff : forall req rec e, (exists m, construct req rec e = Some m) <-> req = true \/ count e = 1%nat.
Proof.
  intros req rec e. unfold construct, count. destruct req; destruct (e_num e) as [n|]; (split; [intros [m H]|intros H]); try (now left); try (now right); try (now eexists).
  - destruct (n =? 1)%nat eqn:E; [|discriminate]. apply Nat.eqb_eq in E. now right.
  - destruct H as [H|H]; [discriminate|]. rewrite (proj2 (Nat.eqb_eq _ _) H). now eexists.
Qed.
Lemma construct_facts : forall req rec e m, construct req rec e = Some m ->
  m_obs m = e_obs e /\ m_act m = e_act e /\ m_n m = count e /\ m_requires m = req /\ m_recurrent m = rec /\ exists e', m_env m = Some e' /\ e_obs e' = e_obs e /\ e_act e' = e_act e /\ count e' = count e /\ (req = true -> e_num e' = Some (count e)).
Proof.
  intros req rec e m H. unfold construct in H. destruct req; destruct (e_num e) as [n|] eqn:E.
  - injection H as <-. cbn. unfold count. rewrite E. repeat (split; [reflexivity|]). exists e. rewrite E. auto.
  - injection H as <-. cbn. unfold count. rewrite E. repeat (split; [reflexivity|]). exists (wrap1 e). cbn. auto 6.
  - destruct (n =? 1)%nat eqn:N; [|discriminate]. apply Nat.eqb_eq in N. injection H as <-. cbn. unfold count. rewrite E. subst n. repeat (split; [reflexivity|]). exists (wrap1 e). cbn. auto 6.
  - injection H as <-. cbn. unfold count. rewrite E. repeat (split; [reflexivity|]). exists e. rewrite E. split; [reflexivity|]. split; [reflexivity|]. split; [reflexivity|]. split; [reflexivity|]. discriminate.
Qed.
Lemma set_env_iff : forall m e, (exists m', set_env m (Some e) = Some m') <->
  m_obs m = e_obs e /\ m_act m = e_act e /\
  (m_requires m = true -> e_num e <> None /\ (m_recurrent m = true -> m_n m = count e)) /\ (m_requires m = false -> count e = 1%nat).
Proof.
  intros m e. unfold set_env, count. destruct ((m_obs m =? e_obs e) && (m_act m =? e_act e))%nat eqn:A.
  - apply andb_true_iff in A. destruct A as [A B]. apply Nat.eqb_eq in A. apply Nat.eqb_eq in B. destruct (m_requires m); destruct (e_num e) as [n|].
    + destruct (m_recurrent m); cbn [negb orb].
      * destruct (m_n m =? n)%nat eqn:N; [apply Nat.eqb_eq in N|apply Nat.eqb_neq in N]; split; intros H.
        { repeat split; auto; discriminate. } { now eexists. } { destruct H; discriminate. } { destruct H as (_ & _ & H & _). destruct (H eq_refl) as [_ K]. exfalso. apply N. now apply K. }
      * split; intros H; [|now eexists]. repeat split; auto; discriminate.
    + split; [intros [m' H]; discriminate|]. intros (_ & _ & H & _). destruct (H eq_refl). contradiction.
    + destruct (n =? 1)%nat eqn:N; [apply Nat.eqb_eq in N|apply Nat.eqb_neq in N]; split; intros H.
      * repeat split; auto; discriminate.
      * now eexists.
      * destruct H; discriminate.
      * destruct H as (_ & _ & _ & H). exfalso. apply N. now apply H.
    + split; intros H; [|now eexists]. repeat split; auto; discriminate.
  - split; [destruct (m_env m); intros [m' H]; discriminate|]. intros (B & C & _). rewrite B, C, !Nat.eqb_refl in A. discriminate.
Qed.
Lemma set_env_facts : forall m e m', set_env m (Some e) = Some m' ->
  m_obs m' = m_obs m /\ m_act m' = m_act m /\ m_requires m' = m_requires m /\ m_recurrent m' = m_recurrent m /\ m_n m' = count e /\
  exists e', m_env m' = Some e' /\ e_obs e' = e_obs e /\ e_act e' = e_act e /\ count e' = count e.
Proof.
  intros m e m' H. unfold set_env, count in *. destruct ((m_obs m =? e_obs e) && (m_act m =? e_act e))%nat; [|destruct (m_env m); discriminate].
  destruct (m_requires m) eqn:R; destruct (e_num e) as [n|] eqn:E.
  - destruct (negb (m_recurrent m) || (m_n m =? n)%nat); [|discriminate]. injection H as <-. cbn. repeat (split; [reflexivity|]). exists e. rewrite E. auto.
  - discriminate.
  - destruct (n =? 1)%nat eqn:N; [|discriminate]. apply Nat.eqb_eq in N. subst n. injection H as <-. cbn. repeat (split; [reflexivity|]). exists (wrap1 e). cbn. auto 6.
  - injection H as <-. cbn. repeat (split; [reflexivity|]). exists e. rewrite E. auto.
Qed.
Lemma set_env_none : forall m, (exists m', set_env m None = Some m') <-> m_env m = None.
Proof. intros m. unfold set_env. destruct (m_env m); split; intros H; try discriminate; try reflexivity; [destruct H; discriminate|now eexists]. Qed.
Lemma plain_refused : forall rec e, e_num e = None -> exists m, construct true rec e = Some m /\ set_env m (Some e) = None.
Proof. intros rec e E. unfold construct. rewrite E. eexists. split; [reflexivity|]. unfold set_env. cbn. rewrite E. now destruct ((e_obs e =? e_obs e) && (e_act e =? e_act e))%nat. Qed.

(** ** PPO2 *)
Lemma ppo_rows_some : forall {A} (rows : list A) idx, (forall i, In i idx -> (i < List.length rows)%nat) -> exists l, ppo_rows rows idx = Some l /\ Forall2 (fun i x => nth_error rows i = Some x) idx l.
Proof.
  induction idx as [|i idx IH]; intros H; [exists []; split; [reflexivity|constructor]|]. destruct IH as (l & E & F); [intros; apply H; now right|]. cbn [ppo_rows fold_right]. fold (ppo_rows rows idx). rewrite E.
  destruct (nth_error rows i) as [x|] eqn:N; [|apply nth_error_None in N; specialize (H i (or_introl eq_refl)); lia]. exists (x :: l). split; [reflexivity|]. now constructor.
Qed.
Lemma ppo_rows_none : forall {A} (rows : list A) idx i, In i idx -> (List.length rows <= i)%nat -> ppo_rows rows idx = None.
Proof.
  induction idx as [|j idx IH]; intros i I L; [destruct I|]. cbn [ppo_rows fold_right]. fold (ppo_rows rows idx). destruct I as [->|I].
  - apply nth_error_None in L. now rewrite L.
  - rewrite (IH i I L). now destruct (nth_error rows j).
Qed.
Lemma forall2_perm : forall {A} (rows : list A) idx idx', Permutation idx idx' -> forall l, Forall2 (fun i x => nth_error rows i = Some x) idx l -> exists l', Forall2 (fun i x => nth_error rows i = Some x) idx' l' /\ Permutation l l'.
Proof.
  intros A rows idx idx' P. induction P; intros l0 F.
  - inversion F. subst. exists []. split; [constructor|constructor].
  - inversion F as [|a b c d X Y]. subst. destruct (IHP d Y) as (l'' & G & H). exists (b :: l''). split; [now constructor|now constructor].
  - inversion F as [|a b c d X Y]. subst. inversion Y as [|a' b' c' d' X' Y']. subst. exists (b' :: b :: d'). split; [constructor; [exact X'|constructor; assumption]|apply perm_swap].
  - destruct (IHP1 l0 F) as (l1 & F1 & Q1). destruct (IHP2 l1 F1) as (l2 & F2 & Q2). exists l2. split; [exact F2|]. now transitivity l1.
Qed.
Lemma seq_rows : forall {A} (rows : list A) n k, (k + n <= List.length rows)%nat -> Forall2 (fun i x => nth_error rows i = Some x) (seq k n) (firstn n (skipn k rows)).
Proof.
  intros A rows n. induction n as [|n IH]; intros k H; [constructor|]. cbn [seq]. destruct (skipn k rows) as [|x t] eqn:E.
  - apply (f_equal (@List.length A)) in E. rewrite skipn_length in E. cbn in E. lia.
  - cbn [firstn]. assert (X : nth_error rows k = Some x). { clear - E. revert rows E. induction k as [|k IH]; intros [|y r] E; cbn in *; try discriminate; [congruence|now apply IH]. }
    constructor; [exact X|]. replace t with (skipn (S k) rows); [apply IH; lia|]. clear - E. revert rows E. induction k as [|k IH]; intros [|y r] E; cbn in *; try discriminate; [congruence|now apply IH].
Qed.
Lemma forall2_fun : forall {A} (rows : list A) idx l l', Forall2 (fun i x => nth_error rows i = Some x) idx l -> Forall2 (fun i x => nth_error rows i = Some x) idx l' -> l = l'.
Proof. intros A rows idx l l' F. revert l'. induction F as [|i x idx l X F IH]; intros l' G; inversion G; subst; [reflexivity|]. f_equal; [congruence|now apply IH]. Qed.
Lemma rows_first : forall {A} (rows : list A) n shuffled, (n <= List.length rows)%nat -> Permutation shuffled (seq 0 n) -> exists l, ppo_rows rows shuffled = Some l /\ Permutation l (firstn n rows).
Proof.
  intros A rows n sh L P. destruct (ppo_rows_some rows sh) as (l & E & F). { intros i I. apply (Permutation_in _ P), in_seq in I. lia. }
  exists l. split; [exact E|]. destruct (forall2_perm rows _ _ P l F) as (l' & G & Q). rewrite Q. pose proof (seq_rows rows n 0 L) as R. cbn [skipn] in R. rewrite (forall2_fun rows _ _ _ G R). reflexivity.
Qed.
Lemma concat_firstn : forall {A} (per : list (list A)) s n, Forall (fun r => List.length r = s) per -> firstn (n * s) (concat per) = concat (firstn n per).
Proof.
  induction per as [|r per IH]; intros s n F; [now rewrite !firstn_nil|]. destruct n as [|n]; [reflexivity|]. apply Forall_cons_iff in F. destruct F as [R F]. cbn [concat firstn Nat.mul]. rewrite <- R at 1. rewrite firstn_app_2. f_equal. now apply IH.
Qed.
Lemma concat_len : forall {A} (per : list (list A)) s, Forall (fun r => List.length r = s) per -> List.length (concat per) = (List.length per * s)%nat.
Proof. induction per as [|r per IH]; intros s F; [reflexivity|]. apply Forall_cons_iff in F. destruct F as [R F]. cbn. rewrite app_length, (IH s F), R. reflexivity. Qed.
Lemma ppo_trains : forall {A} (per : list (list A)) n s shuffled, Forall (fun r => List.length r = s) per -> (n <= List.length per)%nat -> Permutation shuffled (seq 0 (n * s)) ->
  exists l, ppo_rows (concat per) shuffled = Some l /\ Permutation l (concat (firstn n per)).
Proof.
  intros A per n s sh F L P. rewrite <- (concat_firstn per s n F). apply rows_first; [|exact P]. rewrite (concat_len per s F). apply Nat.mul_le_mono_r. exact L.
Qed.
Lemma ppo_fewer : forall {A} (per : list (list A)) n s shuffled, Forall (fun r => List.length r = s) per -> (List.length per < n)%nat -> (0 < s)%nat -> Permutation shuffled (seq 0 (n * s)) -> ppo_rows (concat per) shuffled = None.
Proof.
  intros A per n s sh F L S0 P. apply (ppo_rows_none _ _ (List.length per * s)).
  - apply (Permutation_in _ (Permutation_sym P)), in_seq. split; [lia|]. cbn. apply Nat.mul_lt_mono_pos_r; lia.
  - rewrite (concat_len per s F). lia.
Qed.
Lemma ppo_steps_bound : forall total n s, (0 < n * s)%nat -> (ppo_steps total (n * s) n s <= total < ppo_steps total (n * s) n s + n * s)%nat.
Proof. intros total n s H. unfold ppo_steps, ppo_updates. pose proof (Nat.div_mod total (n * s)). pose proof (Nat.mod_upper_bound total (n * s)). split; lia. Qed.
Lemma ppo_steps_more : forall total n s k, (0 < n * s)%nat -> ppo_steps total (n * s) (k * n) s = (k * ppo_steps total (n * s) n s)%nat.
Proof. intros. unfold ppo_steps. lia. Qed.
