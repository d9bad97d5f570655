(** Proofs about the tuners. *)
From Coq Require Import String List Arith ZArith QArith Qround Bool Lia Lqa Permutation.
From Verif Require Import Base BaseFacts Space_Model Space_Spec Space_Facts Opt_Model Data_Proofs Env_Model Env_Spec Env_Proofs Env_Disc Tune_Model Tune_Spec.
Import ListNotations.
Open Scope nat_scope.

(* ---------- the product ---------- *)
Section Product.
Context {A : Type}.
Implicit Types ls : list (list A).
Lemma block_length (f : A -> list (list A)) n l : (forall a, length (f a) = n) -> length (flat_map f l) = length l * n.
Proof. intros H. induction l as [|a l IH]; simpl; auto. rewrite app_length, H, IH. reflexivity. Qed.
Lemma product_length ls : length (product ls) = count ls.
Proof. induction ls as [|l ls IH]; simpl; auto. rewrite (block_length _ (count ls)); auto. intros a. rewrite map_length. exact IH. Qed.
Lemma block_nth (f : A -> list (list A)) n : (forall a, length (f a) = n) -> forall l j i a, nth_error l j = Some a -> i < n ->
  nth_error (flat_map f l) (j * n + i) = nth_error (f a) i.
Proof.
  intros H. induction l as [|b l IH]; intros [|j] i a E Hi; simpl in *; try discriminate.
  - inversion E; subst. rewrite nth_error_app1; auto. rewrite H; auto.
  - rewrite nth_error_app2 by (rewrite H; lia). rewrite H. replace (n + j * n + i - n) with (j * n + i) by lia. eapply IH; eauto.
Qed.

Lemma rank_lt ls js : positions ls js -> rank ls js < count ls.
Proof.
  unfold positions. induction 1 as [|l j ls js Hj H IH]; simpl; auto. nia.
Qed.
Lemma product_nth ls js : positions ls js -> exists vs, values_at ls js vs /\ nth_error (product ls) (rank ls js) = Some vs.
Proof.
  unfold positions, values_at. induction 1 as [|l j ls js Hj H IH].
  - exists []. repeat split; constructor.
  - destruct IH as (vs & [V L] & E). destruct (nth_error l j) as [a|] eqn:Ea; [|apply nth_error_None in Ea; lia].
    exists (a :: vs). split; [split; [simpl; constructor; auto|simpl; lia]|]. cbn [product rank].
    rewrite (block_nth _ (count ls)) with (a := a).
    + rewrite nth_error_map, E. reflexivity.
    + intros b. rewrite map_length. apply product_length.
    + exact Ea.
    + apply rank_lt; auto.
Qed.
Lemma rank_onto ls : forall i, i < count ls -> exists js, positions ls js /\ rank ls js = i.
Proof.
  unfold positions. induction ls as [|l ls IH]; intros i Hi.
  - exists []. split; [constructor|]. simpl in *. lia.
  - cbn [count fold_right] in Hi. fold (count ls) in Hi. assert (C : 0 < count ls) by nia.
    destruct (IH (i mod count ls)) as (js & J1 & J2). { apply Nat.mod_upper_bound. lia. }
    exists (i / count ls :: js). split.
    + constructor; auto. apply Nat.div_lt_upper_bound; lia.
    + cbn [rank]. rewrite J2. rewrite Nat.mul_comm. symmetry. apply Nat.div_mod. lia.
Qed.
Lemma rank_lex ls js : forall ks, positions ls js -> positions ls ks -> (lex js ks <-> rank ls js < rank ls ks).
Proof.
  revert js. unfold positions. induction ls as [|l ls IH]; intros js ks H1 H2; inversion H1; inversion H2; subst; simpl.
  - lia.
  - rewrite (IH l' l'0) by auto. pose proof (rank_lt ls l' ltac:(auto)). pose proof (rank_lt ls l'0 ltac:(auto)). split.
    + intros [Hl|[-> Hl]]; nia.
    + intros Hl. destruct (lt_eq_lt_dec y y0) as [[Hy|Hy]|Hy]; [left; auto|subst; right; split; [auto|nia]|nia].
Qed.
Lemma rank_inj ls js ks : positions ls js -> positions ls ks -> rank ls js = rank ls ks -> js = ks.
Proof.
  revert js ks. unfold positions. induction ls as [|l ls IH]; intros js ks H1 H2 E; inversion H1; inversion H2; subst; simpl in E; auto.
  pose proof (rank_lt ls l' ltac:(auto)). pose proof (rank_lt ls l'0 ltac:(auto)).
  assert (y = y0) by nia. subst. f_equal. apply IH; auto. nia.
Qed.
Theorem product_ok ls :
  length (product ls) = count ls /\
  (forall js, positions ls js -> exists vs, values_at ls js vs /\ nth_error (product ls) (rank ls js) = Some vs) /\
  (forall i, i < count ls -> exists js, positions ls js /\ rank ls js = i /\ forall ks, positions ls ks -> rank ls ks = i -> ks = js) /\
  (forall js ks, positions ls js -> positions ls ks -> (lex js ks <-> rank ls js < rank ls ks)).
Proof.
  split; [apply product_length|]. split; [apply product_nth|]. split; [|intros; apply rank_lex; auto].
  intros i Hi. destruct (rank_onto ls i Hi) as (js & J1 & J2). exists js. repeat split; auto. intros ks K1 K2. eapply rank_inj; eauto. congruence.
Qed.
End Product.

Lemma product_width {A} (ls : list (list A)) c : In c (product ls) -> length c = length ls.
Proof.
  revert c. induction ls as [|l ls IH]; simpl; intros c H.
  - destruct H as [<-|[]]. reflexivity.
  - apply in_flat_map in H. destruct H as (a & _ & H). apply in_map_iff in H. destruct H as (c' & <- & H). simpl. f_equal. auto.
Qed.

(* ---------- dictionaries ---------- *)
Lemma dput_new {A} (d : list (string * A)) k a : ~ In k (map fst d) -> dput d k a = d ++ [(k, a)].
Proof.
  induction d as [|[k' a'] d IH]; simpl; intros H; auto. destruct (String.eqb_spec k k') as [->|]; [exfalso; auto|]. rewrite IH; auto.
Qed.
Lemma case_dict_ok names : forall vals acc, NoDup names -> (forall n, In n names -> ~ In n (map fst acc)) -> length vals = length names ->
  fold_left (fun d nv => dput d (fst nv) (CVal (snd nv))) (combine names vals) acc = acc ++ combine names (map CVal vals).
Proof.
  induction names as [|n names IH]; intros [|v vals] acc N D L; simpl in *; try discriminate.
  - rewrite app_nil_r. auto.
  - inversion N; subst. rewrite dput_new by (apply D; auto). rewrite (IH vals (acc ++ [(n, CVal v)])); auto.
    + rewrite <- app_assoc. auto.
    + intros m Hm. rewrite map_app, in_app_iff. simpl. intros [H|[H|[]]]; [eapply D; eauto|subst; auto].
Qed.
Lemma combine_fst {A B} : forall (l : list A) (l' : list B), length l = length l' -> map fst (combine l l') = l.
Proof. induction l as [|a l IH]; intros [|b l'] H; simpl in *; try discriminate; auto. f_equal; auto. Qed.
Lemma combine_snd {A B} : forall (l : list A) (l' : list B), length l = length l' -> map snd (combine l l') = l'.
Proof. induction l as [|a l IH]; intros [|b l'] H; simpl in *; try discriminate; auto. f_equal; auto. Qed.

Section Tune.
Context (fit : list val -> option Q).

Lemma worker_row names id vals : NoDup names -> ~ In "id"%string names -> ~ In "score"%string names -> length vals = length names ->
  worker fit names id vals = match fit vals with
    | Some q => (CScore q, [CId id :: map CVal vals ++ [CScore q]])
    | None => (CFailed id, [])
    end.
Proof.
  intros N NI NS L. unfold worker. destruct (fit vals) as [q|]; auto. f_equal. f_equal. unfold case_dict.
  rewrite (case_dict_ok names vals [("id"%string, CId id)] N); auto; [|simpl; intros n Hn [<-|[]]; auto].
  rewrite dput_new.
  - rewrite !map_app. cbn [map snd app]. rewrite combine_snd by (rewrite map_length; auto). reflexivity.
  - rewrite map_app, in_app_iff, combine_fst by (rewrite map_length; auto). simpl. intros [[H|[]]|H]; [discriminate|auto].
Qed.

Lemma worker_fst names id vals : fst (worker fit names id vals) = match fit vals with Some q => CScore q | None => CFailed id end.
Proof. unfold worker. destruct (fit vals); auto. Qed.

Lemma nth_combine {A B} : forall (l : list A) (l' : list B) i a b, nth_error l i = Some a -> nth_error l' i = Some b -> nth_error (combine l l') i = Some (a, b).
Proof. induction l as [|x l IH]; intros [|y l'] [|i] a b H1 H2; simpl in *; try discriminate; try congruence. apply IH; auto. Qed.
Lemma core_nth cases i c : nth_error cases i = Some c -> nth_error (core_lst cases) i = Some (S i, c).
Proof.
  intros E. assert (i < length cases) by (apply nth_error_Some; congruence). unfold core_lst. apply nth_combine; auto.
  rewrite (nth_error_nth' _ 0) by (rewrite seq_length; auto). rewrite seq_nth by auto. reflexivity.
Qed.
Lemma core_length cases : length (core_lst cases) = length cases.
Proof. unfold core_lst. rewrite combine_length, seq_length. lia. Qed.

Theorem serial_results names cases : length (fst (serial fit names cases)) = length cases /\
  forall i c, nth_error cases i = Some c -> nth_error (fst (serial fit names cases)) i = Some (reported fit i c).
Proof.
  unfold serial. cbn [fst]. split; [rewrite map_length; apply core_length|].
  intros i c E. rewrite nth_error_map, (core_nth _ _ _ E). simpl. rewrite worker_fst. reflexivity.
Qed.

(** The table. *)
Lemma dget_app_new {A} (d : list (string * A)) k a : ~ In k (map fst d) -> dget (d ++ [(k, a)]) k = Some a.
Proof.
  induction d as [|[k' a'] d IH]; simpl; intros H; [rewrite String.eqb_refl; auto|].
  destruct (String.eqb_spec k' k) as [->|]; [exfalso; auto|]. auto.
Qed.
Lemma dget_app_old {A} (d : list (string * A)) k k' a a' : dget d k = Some a -> dget (d ++ [(k', a')]) k = Some a.
Proof. induction d as [|[x y] d IH]; simpl; intros H; [discriminate|]. destruct (String.eqb x k); auto. Qed.
Lemma dget_combine {A} : forall (names : list string) (l : list A) j n a, NoDup names -> nth_error names j = Some n -> nth_error l j = Some a ->
  dget (combine names l) n = Some a.
Proof.
  induction names as [|m names IH]; intros [|b l] [|j] n a N E1 E2; simpl in *; try discriminate; inversion N; subst.
  - inversion E1; inversion E2; subst. rewrite String.eqb_refl. auto.
  - destruct (String.eqb_spec m n) as [->|]; [exfalso; apply H1; eapply nth_error_In; eauto|]. eapply IH; eauto.
Qed.

Theorem frame_ok names cases results : NoDup names -> ~ In "score"%string names ->
  map fst (frame names cases results) = names ++ ["score"%string] /\
  dget (frame names cases results) "score" = Some results /\
  (forall j n, nth_error names j = Some n -> exists col, dget (frame names cases results) n = Some col /\ length col = length cases /\
     forall i c v, nth_error cases i = Some c -> nth_error c j = Some v -> nth_error col i = Some (CVal v)).
Proof.
  intros N NS. unfold frame.
  assert (L : length names = length (map (column cases) (seq 0 (length names)))) by (rewrite map_length, seq_length; auto).
  assert (F : ~ In "score"%string (map fst (combine names (map (column cases) (seq 0 (length names)))))) by (rewrite combine_fst; auto).
  rewrite dput_new by auto. split; [|split].
  - rewrite map_app, combine_fst by auto. reflexivity.
  - apply dget_app_new; auto.
  - intros j n E. assert (j < length names) by (apply nth_error_Some; congruence). exists (column cases j). split; [|split].
    + apply dget_app_old. eapply dget_combine; eauto. rewrite nth_error_map, (nth_error_nth' _ 0) by (rewrite seq_length; auto).
      rewrite seq_nth by auto. reflexivity.
    + unfold column. apply map_length.
    + intros i c v Ec Ev. unfold column. rewrite nth_error_map, Ec. simpl. rewrite Ev. reflexivity.
Qed.

(** The csv file. *)
Lemma serial_csv_from names : NoDup names -> ~ In "id"%string names -> ~ In "score"%string names ->
  forall cases k, Forall (fun c => length c = length names) cases ->
  concat (map (fun w => snd (worker fit names (fst w) (snd w))) (combine (seq k (length cases)) cases)) =
  flat_map (fun w => match fit (snd w) with Some q => [CId (fst w) :: map CVal (snd w) ++ [CScore q]] | None => [] end) (combine (seq k (length cases)) cases).
Proof.
  intros N NI NS. induction cases as [|c cases IH]; intros k F; auto. inversion F; subst. cbn [length seq combine map concat flat_map fst snd].
  rewrite IH by auto. f_equal. rewrite worker_row by auto. destruct (fit c); reflexivity.
Qed.
Theorem serial_csv names cases : NoDup names -> ~ In "id"%string names -> ~ In "score"%string names ->
  Forall (fun c => length c = length names) cases ->
  snd (serial fit names cases) =
  flat_map (fun w => match fit (snd w) with Some q => [CId (fst w) :: map CVal (snd w) ++ [CScore q]] | None => [] end) (combine (seq 1 (length cases)) cases).
Proof. intros. apply serial_csv_from; auto. Qed.
(** ... read under its headings. *)
Lemma csv_headings names cases row : NoDup names -> ~ In "id"%string names -> ~ In "score"%string names ->
  Forall (fun c => length c = length names) cases -> In row (snd (serial fit names cases)) ->
  length row = length (header names) /\ exists i c q, nth_error cases i = Some c /\ fit c = Some q /\
    dget (combine (header names) row) "id" = Some (CId (S i)) /\
    dget (combine (header names) row) "score" = Some (CScore q) /\
    forall j n v, nth_error names j = Some n -> nth_error c j = Some v -> dget (combine (header names) row) n = Some (CVal v).
Proof.
  intros N NI NS F H. rewrite serial_csv in H by auto. apply in_flat_map in H. destruct H as ([k c] & Hw & H). cbn [fst snd] in H.
  destruct (fit c) as [q|] eqn:Ef; [|destruct H]. destruct H as [<-|[]].
  assert (exists i, k = S i /\ nth_error cases i = Some c) as (i & -> & Hi).
  { apply In_nth_error in Hw. destruct Hw as [i Hi]. exists i.
    assert (L : i < length cases). { assert (i < length (combine (seq 1 (length cases)) cases)) by (apply nth_error_Some; congruence). rewrite combine_length, seq_length in H. lia. }
    apply nth_error_split in Hi. destruct Hi as (l1 & l2 & E & Li).
    assert (E1 : nth_error (map fst (combine (seq 1 (length cases)) cases)) i = Some k) by (rewrite E, map_app, nth_error_app2, map_length, Li, Nat.sub_diag by (rewrite map_length; lia); reflexivity).
    assert (E2 : nth_error (map snd (combine (seq 1 (length cases)) cases)) i = Some c) by (rewrite E, map_app, nth_error_app2, map_length, Li, Nat.sub_diag by (rewrite map_length; lia); reflexivity).
    assert (MF : forall (A B : Type) (l : list A) (r : list B), length l = length r -> map fst (combine l r) = l /\ map snd (combine l r) = r).
    { clear. induction l as [|a l IH]; intros [|b r] E; try discriminate; auto. simpl. destruct (IH r) as [I1 I2]; [simpl in E; lia|]. rewrite I1, I2. auto. }
    destruct (MF _ _ (seq 1 (length cases)) cases (seq_length _ _)) as [M1 M2]. rewrite M1 in E1. rewrite M2 in E2.
    split; auto. rewrite (nth_error_nth' _ 0) in E1 by (rewrite seq_length; auto). rewrite seq_nth in E1 by auto. inversion E1. lia. }
  assert (CL : length c = length names) by (rewrite Forall_forall in F; apply F; eapply nth_error_In; eauto).
  assert (ND : NoDup (header names)).
  { unfold header. constructor.
    - rewrite in_app_iff. intros [?|[E|[]]]; [auto|discriminate].
    - apply NoDup_rev in N. rewrite <- (rev_involutive (names ++ _)), rev_app_distr. apply NoDup_rev. simpl. constructor; auto. rewrite <- in_rev. auto. }
  split; [unfold header; cbn [length]; rewrite !app_length, map_length, CL; reflexivity|].
  exists i, c, q. split; auto. split; auto. split; [reflexivity|]. split.
  - apply (dget_combine _ _ (S (length names))); auto.
    + unfold header. cbn [nth_error]. rewrite nth_error_app2, Nat.sub_diag by lia. reflexivity.
    + cbn [nth_error]. rewrite nth_error_app2, map_length, CL, Nat.sub_diag by (rewrite map_length; lia). reflexivity.
  - intros j n v Hn Hv. apply (dget_combine _ _ (S j)); auto; cbn [nth_error header].
    + rewrite nth_error_app1 by (apply nth_error_Some; congruence). auto.
    + rewrite nth_error_app1 by (rewrite map_length; apply nth_error_Some; congruence). rewrite nth_error_map, Hv. reflexivity.
Qed.

(** Parallel execution. *)
Definition out names (cases : list (list val)) (k : nat) : list (list cell) :=
  match nth_error (core_lst cases) k with Some w => snd (worker fit names (fst w) (snd w)) | None => [] end.
Lemma set_nth_length {A} (x : A) : forall l k, length (set_nth l k x) = length l.
Proof. induction l as [|a l IH]; intros [|k]; simpl; auto. Qed.
Lemma par_inv names cases sched : NoDup sched -> forall st, length (fst st) = length cases ->
  let st' := fold_left (finish fit names cases) sched st in
  length (fst st') = length cases /\
  (forall k w, In k sched -> nth_error (core_lst cases) k = Some w -> nth_error (fst st') k = Some (Some (fst (worker fit names (fst w) (snd w))))) /\
  (forall k, ~ In k sched -> nth_error (fst st') k = nth_error (fst st) k) /\
  snd st' = snd st ++ flat_map (out names cases) sched.
Proof.
  intros N. induction N as [|x sched NI N IH]; intros st L.
  - simpl. rewrite app_nil_r. repeat split; auto. intros k w [].
  - cbn [fold_left]. assert (L' : length (fst (finish fit names cases st x)) = length cases).
    { unfold finish. destruct (nth_error _ x); auto. simpl. rewrite set_nth_length; auto. }
    destruct (IH _ L') as (I1 & I2 & I3 & I4). cbn zeta in *. split; auto. split; [|split].
    + intros k w [<-|Hk] E; [|apply I2; auto]. rewrite I3 by auto. unfold finish. rewrite E. simpl. apply nth_set_nth_same.
      assert (x < length (core_lst cases)) by (apply nth_error_Some; congruence). rewrite core_length in *. lia.
    + intros k Hk. rewrite I3 by (simpl in Hk; tauto). unfold finish. destruct (nth_error _ x); auto. simpl. apply nth_set_nth_other. simpl in Hk. intuition congruence.
    + rewrite I4. unfold finish at 1. unfold out. cbn [flat_map]. fold (out names cases). destruct (nth_error (core_lst cases) x); simpl; rewrite <- ?app_assoc; reflexivity.
Qed.
Lemma nth_ext_error {A} : forall (l l' : list A), (forall i, nth_error l i = nth_error l' i) -> l = l'.
Proof.
  induction l as [|a l IH]; intros [|b l'] H; auto; try (specialize (H 0); discriminate).
  pose proof (H 0) as H0. simpl in H0. inversion H0; subst. f_equal. apply IH. intros i. apply (H (S i)).
Qed.
Lemma traverse_id {A} (l : list A) : forall i, traverse (fun _ c => c) i (map Some l) = Some l.
Proof. induction l as [|a l IH]; intros i; simpl; auto. rewrite IH. reflexivity. Qed.
Lemma flat_map_perm {A B} (f : A -> list B) l l' : Permutation l l' -> Permutation (flat_map f l) (flat_map f l').
Proof.
  induction 1; simpl; auto.
  - apply Permutation_app_head; auto.
  - rewrite !app_assoc. apply Permutation_app_tail. apply Permutation_app_comm.
  - etransitivity; eauto.
Qed.
Lemma out_serial_from names (ws : list (nat * list val)) : forall k (full : list (nat * list val)),
  (forall i, nth_error full (k + i) = nth_error ws i) ->
  flat_map (fun j => match nth_error full j with Some w => snd (worker fit names (fst w) (snd w)) | None => [] end) (seq k (length ws)) =
  concat (map (fun w => snd (worker fit names (fst w) (snd w))) ws).
Proof.
  induction ws as [|w ws IH]; intros k full H; auto. cbn [length seq flat_map map concat].
  pose proof (H 0) as H0. rewrite Nat.add_0_r in H0. rewrite H0. simpl nth_error. cbn iota. f_equal. apply IH.
  intros i. pose proof (H (S i)) as Hi. rewrite Nat.add_succ_r in Hi. exact Hi.
Qed.
Theorem parallel_ok names cases sched : Permutation sched (seq 0 (length cases)) ->
  fst (parallel fit names cases sched) = Some (fst (serial fit names cases)) /\
  Permutation (snd (parallel fit names cases sched)) (snd (serial fit names cases)).
Proof.
  intros P. assert (N : NoDup sched) by (eapply Permutation_NoDup; [symmetry; exact P|apply seq_NoDup]).
  destruct (par_inv names cases sched N (repeat None (length cases), [])) as (I1 & I2 & I3 & I4). { simpl. apply repeat_length. }
  cbn zeta in *. unfold parallel. cbn [fst snd] in *. split.
  - assert (E : fst (fold_left (finish fit names cases) sched (repeat None (length cases), [])) = map Some (fst (serial fit names cases))).
    { apply nth_ext_error. intros i. destruct (lt_dec i (length cases)) as [Hi|Hi].
      - destruct (nth_error cases i) as [c|] eqn:Ec; [|apply nth_error_None in Ec; lia].
        rewrite (I2 i (S i, c)); [|apply (Permutation_in _ (Permutation_sym P)); apply in_seq; lia|apply core_nth; auto].
        rewrite nth_error_map. unfold serial. cbn [fst]. rewrite nth_error_map, (core_nth _ _ _ Ec). reflexivity.
      - rewrite (proj2 (nth_error_None _ _)) by (rewrite I1; lia). symmetry. apply nth_error_None. rewrite map_length.
        destruct (serial_results names cases) as [-> _]. lia. }
    rewrite E. apply traverse_id.
  - rewrite I4. simpl. unfold serial. cbn [snd]. etransitivity; [apply flat_map_perm; exact P|].
    rewrite <- (out_serial_from names (core_lst cases) 0 (core_lst cases)) by auto. rewrite core_length. apply Permutation_refl.
Qed.
End Tune.

(* ---------- random cases ---------- *)
Section Rand.
Context (randint : nat -> Z -> Z -> Z) (uniform : nat -> Q -> Q -> Q) (pick : nat -> nat).
Lemma rand_value_ok t r : randint_ok randint -> (forall t a b, (a <= b)%Q -> (a <= uniform t a b)%Q /\ (uniform t a b <= b)%Q) -> wf_rtype r ->
  exists v, rand_value randint uniform pick t r = Some v /\ allowed r v.
Proof.
  intros RK UK W. destruct r as [lb ub|lb ub|vals|]; simpl in *; try contradiction.
  - destruct W as (W & [lo Hlo] & [hi Hhi]). rewrite (int_of_Z _ _ Hlo), (int_of_Z _ _ Hhi).
    assert (LH : (lo <= hi)%Z) by (rewrite Zle_Qle, <- Hlo, <- Hhi; auto). destruct (Z.leb_spec lo hi); [|lia].
    eexists. split; [reflexivity|]. pose proof (RK t lo hi LH). eexists. split; [reflexivity|]. split; [eexists; reflexivity|].
    rewrite Hlo, Hhi, <- !Zle_Qle. lia.
  - destruct (UK t lb ub W). eexists. split; [reflexivity|]. eauto.
  - destruct (Nat.eqb_spec (length vals) 0) as [E|E]; [destruct vals; [congruence|discriminate]|].
    unfold choice. destruct (nth_error vals (pick t mod length vals)) as [v|] eqn:Ev.
    + exists v. split; auto. eapply nth_error_In; eauto.
    + apply nth_error_None in Ev. pose proof (Nat.mod_upper_bound (pick t) (length vals)). lia.
Qed.
Lemma traverse_some {A B} (f : nat -> A -> option B) (R : A -> B -> Prop) l : (forall i a, In a l -> exists b, f i a = Some b /\ R a b) ->
  forall i, exists bs, traverse f i l = Some bs /\ Forall2 R l bs.
Proof.
  induction l as [|a l IH]; intros H i; simpl; [eexists; split; [reflexivity|constructor]|].
  destruct (H i a) as (b & -> & Rb); [left; auto|]. destruct (IH (fun i a Ha => H i a (or_intror Ha)) (S i)) as (bs & -> & F). eexists; split; [reflexivity|constructor; auto].
Qed.
Theorem rand_ok g ncases : randint_ok randint -> (forall t a b, (a <= b)%Q -> (a <= uniform t a b)%Q /\ (uniform t a b <= b)%Q) ->
  Forall (fun kr => wf_rtype (snd kr)) g ->
  exists cases, rand_cases randint uniform pick g ncases = Some cases /\ length cases = ncases /\
    Forall (fun c => Forall2 (fun kr v => allowed (snd kr) v) g c) cases.
Proof.
  intros RK UK W. unfold rand_cases.
  destruct (traverse_some (fun k _ => traverse (fun j r => rand_value randint uniform pick (k * length g + j) r) 0 (map snd g))
     (fun (_ : unit) c => Forall2 (fun kr v => allowed (snd kr) v) g c) (repeat tt ncases)) with (i := 0) as (cases & E & F).
  - intros k u _. destruct (traverse_some (fun j r => rand_value randint uniform pick (k * length g + j) r) allowed (map snd g)) with (i := 0) as (c & Ec & Fc).
    + intros j r Hr. apply rand_value_ok; auto. apply in_map_iff in Hr. destruct Hr as (kr & <- & Hk). rewrite Forall_forall in W. auto.
    + exists c. split; auto. exact (proj1 (F2_map_l snd allowed g c) Fc).
  - exists cases. split; auto. split; [rewrite <- (F2_len _ _ _ F); apply repeat_length|].
    clear E. revert F. generalize (repeat tt ncases). intros l F. induction F; constructor; auto.
Qed.
End Rand.

Theorem rand_scores randint uniform pick (g : list (string * rtype)) ncases fit cases : NoDup (map fst g) -> ~ In "score"%string (map fst g) ->
  rand_cases randint uniform pick g ncases = Some cases ->
  (forall i c, nth_error cases i = Some c -> nth_error (fst (serial fit (map fst g) cases)) i = Some (reported fit i c)) /\
  dget (frame (map fst g) cases (fst (serial fit (map fst g) cases))) "score" = Some (fst (serial fit (map fst g) cases)) /\
  forall sched, Permutation sched (seq 0 (length cases)) -> fst (parallel fit (map fst g) cases sched) = Some (fst (serial fit (map fst g) cases)).
Proof.
  intros N NS _. split; [apply serial_results|]. split; [apply frame_ok; auto|]. intros sched P. apply parallel_ok; auto.
Qed.
