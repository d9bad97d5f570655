(** Proofs about the knapsack environment. *)
From Coq Require Import List Arith ZArith QArith Qminmax Bool Lia Lqa Permutation.
From Verif Require Import Base BaseFacts Opt_Model Opt_Facts Opt_Facts2 Data_Proofs Env_Disc KP_Model KP_Spec.
Import ListNotations.
Open Scope nat_scope.

Lemma NoDup_r {A} (l l' : list A) : NoDup (l ++ l') -> NoDup l'.
Proof. induction l; simpl; auto. intros H. inversion H; auto. Qed.

(* ---------- picking ---------- *)
Lemma remove_notin x : forall l, ~ In x l -> remove Nat.eq_dec x l = l.
Proof. induction l as [|y l IH]; simpl; intros H; auto. destruct (Nat.eq_dec x y); [exfalso; auto|]. f_equal. auto. Qed.
Lemma remove_at_remove : forall l i x, NoDup l -> nth_error l i = Some x -> remove_at l i = remove Nat.eq_dec x l.
Proof.
  induction l as [|y l IH]; intros [|i] x N E; simpl in *; try discriminate; inversion N; subst.
  - inversion E; subst. destruct (Nat.eq_dec x x); [|congruence]. symmetry. apply remove_notin; auto.
  - destruct (Nat.eq_dec x y) as [->|]; [exfalso; apply H1; eapply nth_error_In; eauto|]. f_equal. auto.
Qed.
Lemma remove_NoDup x l : NoDup l -> NoDup (remove Nat.eq_dec x l).
Proof.
  induction 1 as [|y l H N IH]; simpl; [constructor|]. destruct (Nat.eq_dec x y); auto. constructor; auto.
  intros C. apply in_remove in C. tauto.
Qed.
Lemma remove_perm x l : NoDup l -> In x l -> Permutation l (x :: remove Nat.eq_dec x l).
Proof.
  intros N H. apply In_nth_error in H. destruct H as [i E]. rewrite <- (remove_at_remove _ _ _ N E). apply remove_at_perm; auto.
Qed.
Lemma pick_ok rnd t ids a : NoDup ids -> ids <> [] ->
  exists x, pick_next rnd t ids a = Some (x, remove Nat.eq_dec x ids) /\ In x ids /\ (nth_error ids a = Some x \/ length ids <= a).
Proof.
  intros N H. unfold pick_next. assert (L : 0 < length ids) by (destruct ids; [congruence|simpl; lia]).
  set (a' := if a <? length ids then a else rnd t mod length ids).
  assert (A : a' < length ids). { unfold a'. destruct (Nat.ltb_spec a (length ids)); auto. apply Nat.mod_upper_bound. lia. }
  destruct (nth_error ids a') as [x|] eqn:E; [|apply nth_error_None in E; lia]. exists x. cbn [bind].
  rewrite (remove_at_remove _ _ _ N E). split; auto. split; [eapply nth_error_In; eauto|].
  unfold a' in E. destruct (Nat.ltb_spec a (length ids)); auto.
Qed.
Lemma chosen_cons ids a acts x l : In x ids -> nth_error ids a = Some x \/ length ids <= a -> chosen (remove Nat.eq_dec x ids) acts l -> chosen ids (a :: acts) (x :: l).
Proof. intros I [E|E] C; [eapply chosen_in|eapply chosen_out]; eauto. Qed.

(* ---------- sums ---------- *)
Lemma fold_map {A} (g : A -> nat -> A) (f : nat -> nat) l : forall a, fold_left g (map f l) a = fold_left (fun a x => g a (f x)) l a.
Proof. induction l; simpl; auto. Qed.
Lemma total_snoc f l x : total f (l ++ [x]) = (total f l + f x)%Q.
Proof. unfold total. rewrite fold_left_app. reflexivity. Qed.
Lemma total_shift f l : forall a, (fold_left (fun acc i => (acc + f i)%Q) l a == a + total f l)%Q.
Proof.
  unfold total. induction l as [|x l IH]; intros a; simpl; [ring|]. rewrite IH, (IH (0 + f x)%Q). ring.
Qed.
Lemma total_cons f x l : (total f (x :: l) == f x + total f l)%Q.
Proof. unfold total at 1. simpl. rewrite total_shift. ring. Qed.
Lemma total_perm f l l' : Permutation l l' -> (total f l == total f l')%Q.
Proof.
  induction 1.
  - reflexivity.
  - rewrite !total_cons, IHPermutation. reflexivity.
  - rewrite !total_cons. ring.
  - rewrite IHPermutation1; auto.
Qed.
Lemma total_app f l l' : (total f (l ++ l') == total f l + total f l')%Q.
Proof. induction l as [|x l IH]; [unfold total at 2; simpl; ring|]. rewrite <- app_comm_cons, !total_cons, IH. ring. Qed.
Lemma total_nonneg f l : (forall i, In i l -> (0 <= f i)%Q) -> (0 <= total f l)%Q.
Proof.
  induction l as [|x l IH]; intros H; [apply Qle_refl|]. rewrite total_cons.
  pose proof (H x (or_introl eq_refl)). specialize (IH (fun i Hi => H i (or_intror Hi))). lra.
Qed.
Lemma total_sub f l : forall l', NoDup l -> incl l l' -> (forall i, In i l' -> (0 <= f i)%Q) -> (total f l <= total f l')%Q.
Proof.
  induction l as [|x l IH]; intros l' N I P.
  - apply total_nonneg; auto.
  - inversion N; subst. assert (Hx : In x l') by (apply I; left; auto). apply in_split in Hx. destruct Hx as (l1 & l2 & ->).
    rewrite (total_perm f (l1 ++ x :: l2) (x :: l1 ++ l2)) by (symmetry; apply Permutation_middle). rewrite !total_cons.
    assert (total f l <= total f (l1 ++ l2))%Q; [|lra]. apply IH; auto.
    + intros y Hy. assert (Y : In y (l1 ++ x :: l2)) by (apply I; right; auto). apply in_app_iff in Y. apply in_app_iff. simpl in Y.
      destruct Y as [Y|[Y|Y]]; auto. subst. contradiction.
    + intros i Hi. apply P. apply in_app_iff in Hi. apply in_app_iff. simpl. tauto.
Qed.

Section KP.
Context (rnd : nat -> nat) (c : kconf).
Hypothesis W : wf_kp c.
Local Notation n := (length (kc_objs c)).

Lemma obj_nth i : 1 <= i <= n -> nth_error (kc_objs c) (i - 1) = Some (object c i).
Proof. intros H. unfold object. apply nth_error_nth'. lia. Qed.
Lemma obj_not_sent i : 1 <= i <= n -> Qeq_bool (fst (object c i)) sent = false.
Proof.
  intros H. destruct W as (_ & F & _). rewrite Forall_forall in F. destruct (F (object c i)) as [_ F'].
  { eapply nth_error_In. apply obj_nth; auto. }
  destruct (Qeq_bool _ _) eqn:E; auto. apply Qeq_bool_iff in E. contradiction.
Qed.

(** The state holding the objects [l]. *)
Definition shows (l : list nat) : list (Q * Q) := map (object c) l ++ repeat blank (n - length l).
Lemma shows_nil : shows [] = empty_bag c.
Proof. unfold shows, empty_bag. simpl. rewrite Nat.sub_0_r. reflexivity. Qed.
Lemma first_blank_app r l : (forall i, In i l -> 1 <= i <= n) -> first_blank (map (object c) l ++ blank :: r) = Some (length l).
Proof.
  induction l as [|x l IH]; intros B; [reflexivity|]. simpl. rewrite obj_not_sent by (apply B; left; auto).
  rewrite IH; auto. intros; apply B; right; auto.
Qed.
Lemma first_blank_shows l : bag c l -> length l < n -> first_blank (shows l) = Some (length l).
Proof.
  intros [_ B] L. unfold shows. replace (n - length l) with (S (n - length l - 1)) by lia. simpl repeat. apply first_blank_app; auto.
Qed.
Lemma first_blank_full l : bag c l -> length l = n -> first_blank (shows l) = None.
Proof.
  intros [_ B] L. unfold shows. replace (n - length l) with 0 by lia. simpl. rewrite app_nil_r. clear L.
  induction l as [|x l IH]; simpl; auto. rewrite obj_not_sent by (apply B; left; auto). rewrite IH; auto. intros; apply B; right; auto.
Qed.
Lemma fold_map' col l : forall q, fold_left (fun acc p => (acc + col p)%Q) (map (object c) l) q = fold_left (fun acc i => (acc + col (object c i))%Q) l q.
Proof. induction l as [|x l IH]; intros q; simpl; auto. Qed.
Lemma col_sum_shows col l : bag c l -> length l < n -> col_sum col (shows l) = Some (total (fun i => col (object c i)) l).
Proof.
  intros B L. unfold col_sum. rewrite first_blank_shows by auto. cbn [bind]. f_equal. unfold shows, total.
  rewrite firstn_app, map_length, Nat.sub_diag. simpl firstn. rewrite app_nil_r, <- (map_length (object c) l), firstn_all. apply fold_map'.
Qed.
Lemma shows_split l : length l < n -> shows l = map (object c) l ++ blank :: repeat blank (n - S (length l)).
Proof. intros L. unfold shows. replace (n - length l) with (S (n - S (length l))) by lia. reflexivity. Qed.
Lemma set_shows l x : length l < n -> set_nth (shows l) (length l) (object c x) = shows (l ++ [x]).
Proof.
  intros L. rewrite shows_split by auto. rewrite <- (map_length (object c) l) at 2. rewrite Space_Facts.set_nth_split. unfold shows.
  rewrite map_app, <- app_assoc, app_length. simpl. rewrite Nat.add_1_r. reflexivity.
Qed.
Lemma unset_shows l x : length l < n -> set_nth (shows (l ++ [x])) (length l) blank = shows l.
Proof.
  intros L. rewrite (shows_split l) by auto. unfold shows. rewrite map_app, app_length, <- app_assoc. simpl.
  rewrite Nat.add_1_r. rewrite <- (map_length (object c) l) at 2. rewrite Space_Facts.set_nth_split. reflexivity.
Qed.

(** A bag being filled with the objects [l]. *)
Definition filling (st : kstate) (l : list nat) : Prop :=
  k_state st = shows l /\ Permutation (l ++ k_ids st) (objects c) /\ k_list st = l /\ k_counter st = length l /\ (load c l <= kc_cap c)%Q /\ length l < n.

Lemma objects_NoDup : NoDup (objects c).
Proof. apply seq_NoDup. Qed.
Lemma filling_bag st l : filling st l -> bag c l /\ NoDup (k_ids st) /\ k_ids st <> [] /\ length (k_ids st) = n - length l.
Proof.
  intros (_ & P & _ & _ & _ & L). assert (N : NoDup (l ++ k_ids st)) by (eapply Permutation_NoDup; [symmetry; eauto|apply objects_NoDup]).
  pose proof (Permutation_length P) as E. unfold objects in E. rewrite app_length, seq_length in E.
  split; [|split; [|split]].
  - split; [eapply NoDup_app_l; eauto|]. intros i Hi. assert (H : In i (objects c)) by (eapply Permutation_in; eauto; apply in_or_app; auto).
    apply in_seq in H. lia.
  - eapply NoDup_r; eauto.
  - intros C. rewrite C in E. simpl in E. lia.
  - lia.
Qed.

Lemma place_ok st l a : filling st l -> exists x, In x (k_ids st) /\ (nth_error (k_ids st) a = Some x \/ length (k_ids st) <= a) /\ bag c (l ++ [x]) /\
  (S (length l) = n /\ kp_place rnd c st a = None \/
   S (length l) < n /\ (kc_cap c < load c (l ++ [x]))%Q /\
     kp_place rnd c st a = Some (true, KState (shows l) (remove Nat.eq_dec x (k_ids st)) (l ++ [x]) (S (length l)) (k_sub st) (k_done st) (k_best st) (S (k_t st))) \/
   S (length l) < n /\ (load c (l ++ [x]) <= kc_cap c)%Q /\
     exists st', kp_place rnd c st a = Some (false, st') /\ filling st' (l ++ [x]) /\ k_ids st' = remove Nat.eq_dec x (k_ids st) /\
       k_sub st' = k_sub st /\ k_done st' = k_done st /\ k_best st' = k_best st).
Proof.
  intros F. destruct (filling_bag _ _ F) as (B & N & NE & LE). destruct F as (ES & P & EL & EC & CAP & L).
  destruct (pick_ok rnd (k_t st) (k_ids st) a N NE) as (x & EP & Hx & Ha). exists x. split; auto. split; auto.
  assert (P' : Permutation ((l ++ [x]) ++ remove Nat.eq_dec x (k_ids st)) (objects c)).
  { rewrite <- app_assoc. simpl. rewrite <- (remove_perm x (k_ids st) N Hx). auto. }
  assert (B' : bag c (l ++ [x])).
  { split; [eapply NoDup_app_l; eapply Permutation_NoDup; [symmetry; exact P'|apply objects_NoDup]|].
    intros i Hi. assert (H : In i (objects c)) by (eapply Permutation_in; [exact P'|]; apply in_or_app; auto). apply in_seq in H. lia. }
  split; auto. unfold kp_place. rewrite EP. cbn [bind fst snd]. rewrite obj_nth by (apply (proj2 B'); apply in_or_app; simpl; auto).
  cbn [bind]. rewrite EC. destruct (Nat.ltb_spec (length l) n); [|lia]. rewrite ES, set_shows, unset_shows by auto.
  assert (LX : length (l ++ [x]) = S (length l)) by (rewrite app_length; simpl; lia).
  destruct (Nat.eq_dec (S (length l)) n) as [En|En].
  - left. split; auto. unfold col_sum. rewrite first_blank_full by (auto; lia). reflexivity.
  - right. rewrite col_sum_shows by (auto; lia). cbn [bind]. fold (load c (l ++ [x])).
    destruct (Qltb (kc_cap c) (load c (l ++ [x]))) eqn:E; [left|right]; (split; [lia|]).
    + apply Qltb_lt in E. rewrite EL. auto.
    + apply Qltb_false in E. split; auto. eexists; split; [reflexivity|]. unfold filling. cbn. rewrite EL, LX. repeat split; auto; lia.
Qed.

(** The loop of the list methods. *)
Lemma fill_ok : forall acts st l, filling st l -> l <> [] ->
  exists l' , chosen (k_ids st) acts l' /\ bag c (l ++ l') /\
  (kp_fill rnd c st acts = None /\ length (l ++ l') = n /\ (load c (removelast (l ++ l')) <= kc_cap c)%Q \/
   (exists x st', l' <> [] /\ l ++ l' = x ++ [last l' 0] /\ (load c x <= kc_cap c)%Q /\ (kc_cap c < load c (l ++ l'))%Q /\ length (l ++ l') < n /\
     kp_fill rnd c st acts = Some st' /\ k_state st' = shows x /\ k_list st' = l ++ l' /\ k_sub st' = k_sub st /\ k_done st' = k_done st /\ k_best st' = k_best st) \/
   (length l' = length acts /\ length (l ++ l') < n /\ (load c (l ++ l') <= kc_cap c)%Q)).
Proof.
  induction acts as [|a acts IH]; intros st l F NE.
  - exists []. split; [constructor|]. rewrite app_nil_r. split; [apply (filling_bag _ _ F)|]. right. right. split; auto. destruct F as (_ & _ & _ & _ & C & L). auto.
  - cbn [kp_fill]. assert (EC : k_counter st =? 0 = false).
    { destruct F as (_ & _ & _ & EC & _). rewrite EC. destruct l; [congruence|reflexivity]. }
    rewrite EC. destruct (place_ok st l a F) as (x & Hx & Ha & B & [(L & E)|[(L & C & E)|(L & C & st' & E & F' & EI & ES & ED & EB)]]); rewrite E; cbn [bind fst snd].
    + exists [x]. split; [apply chosen_cons; auto; constructor|]. split; auto. left. split; auto. split; [rewrite app_length; simpl; lia|].
      rewrite removelast_last. apply F.
    + exists [x]. split; [apply chosen_cons; auto; constructor|]. split; auto. right. left. exists l. eexists. split; [congruence|].
      split; [reflexivity|]. split; [apply F|]. split; auto. split; [rewrite app_length; simpl; lia|]. split; [reflexivity|]. cbn. auto.
    + destruct (IH st' (l ++ [x]) F') as (l' & CH & B' & R). { destruct l; simpl; congruence. }
      exists (x :: l'). rewrite EI in CH. split; [apply chosen_cons; auto|]. rewrite <- app_assoc in B', R. simpl in B', R. split; auto.
      destruct R as [R|[(x' & st'' & N' & E' & C1 & C2 & L' & EF & R1 & R2 & R3 & R4 & R5)|(R1 & R2)]]; [left; auto| |].
      * right. left. exists x', st''. split; [congruence|]. split.
        { rewrite E'. destruct l'; [congruence|]. reflexivity. }
        rewrite R3, R4, R5. auto 10.
      * right. right. split; auto. simpl. lia.
Qed.

Lemma reset_filling st : k_list st = [] -> k_counter st = 0 -> filling (kp_reset c st) [].
Proof.
  intros EL EC. destruct W as (N & _ & C & _). unfold filling. rewrite shows_nil. cbn [kp_reset k_state k_ids k_list k_counter]. repeat split; auto; try (simpl; lia).
Qed.

(** The end of a bag, in both kinds of methods. *)
Lemma finish_ok st x y : bag c x -> length x < n -> k_state st = shows x -> k_list st = x ++ [y] -> k_sub st < kc_len c ->
  kp_finish c st = Some (worth c x, x, KState (empty_bag c) (objects c) [] (k_counter st) (S (k_sub st)) (k_done st)
                           (if Qltb 0 (worth c x - k_best st) then worth c x else k_best st) (k_t st)).
Proof.
  intros B L ES EL SB. unfold kp_finish, kp_stats. rewrite ES, col_sum_shows by auto. cbn [bind fst snd].
  destruct (Nat.eqb_spec (S (k_sub st)) (S (kc_len c))); [lia|]. rewrite EL, app_length. simpl length. rewrite Nat.add_1_r. cbn [Nat.eqb].
  rewrite removelast_last. reflexivity.
Qed.

Definition best_of (b s : Q) : Q := if Qltb 0 (s - b) then s else b.
Lemma best_of_max b s : (best_of b s == Qmax b s)%Q.
Proof.
  unfold best_of. destruct (Qltb 0 (s - b)) eqn:E.
  - apply Qltb_lt in E. destruct (Q.max_spec b s) as [[_ ->]|[H _]]; [reflexivity|lra].
  - apply Qltb_false in E. destruct (Q.max_spec b s) as [[H _]|[H ->]]; [lra|reflexivity].
Qed.

Definition next_sub (k : nat) : nat := if S k =? kc_len c then 0 else S k.
Lemma next_sub_mod m : next_sub (m mod kc_len c) = S m mod kc_len c.
Proof.
  destruct W as (_ & _ & _ & L). unfold next_sub. pose proof (Nat.mod_upper_bound m (kc_len c) ltac:(lia)).
  pose proof (Nat.div_mod m (kc_len c) ltac:(lia)). destruct (Nat.eqb_spec (S (m mod kc_len c)) (kc_len c)) as [E|E].
  - apply Nat.mod_unique with (S (m / kc_len c)); lia.
  - apply Nat.mod_unique with (m / kc_len c); lia.
Qed.

Lemma list_step st acts : k_list st = [] -> k_sub st < kc_len c -> length acts = n ->
  (exists r st' x, kp_step_list rnd c st acts = Some (r, st') /\
     chosen (objects c) acts (kr_x r ++ [x]) /\ bag c (kr_x r ++ [x]) /\ (load c (kr_x r) <= kc_cap c)%Q /\ (kc_cap c < load c (kr_x r ++ [x]))%Q /\
     kr_reward r = worth c (kr_x r) /\ kr_done r = (S (k_sub st) =? kc_len c) /\
     k_list st' = [] /\ k_sub st' = next_sub (k_sub st) /\ k_state st' = empty_bag c /\ k_best st' = best_of (k_best st) (worth c (kr_x r))) \/
  (kp_step_list rnd c st acts = None /\ exists l, chosen (objects c) acts l /\ bag c l /\ length l = n /\ (load c (removelast l) <= kc_cap c)%Q).
Proof.
  intros EL SB LA. destruct acts as [|a acts]; [simpl in LA; destruct W; lia|]. unfold kp_step_list. cbn [kp_fill k_counter Nat.eqb].
  set (s0 := kp_reset c _). assert (F : filling s0 []) by (apply reset_filling; auto).
  assert (D : k_done s0 = false /\ k_sub s0 = k_sub st /\ k_best s0 = k_best st /\ k_ids s0 = objects c) by (unfold s0; auto). destruct D as (D0 & D1 & D2 & D3).
  assert (FIN : forall x y s1, bag c (x ++ [y]) -> length x < n -> (load c x <= kc_cap c)%Q -> (kc_cap c < load c (x ++ [y]))%Q -> chosen (objects c) (a :: acts) (x ++ [y]) ->
      k_state s1 = shows x -> k_list s1 = x ++ [y] -> k_sub s1 = k_sub s0 -> k_done s1 = k_done s0 -> k_best s1 = k_best s0 ->
      exists r st' x0, (let* f := kp_finish c s1 in Some (kp_end c (fst (fst f)) (snd (fst f)) (snd f))) = Some (r, st') /\
     chosen (objects c) (a :: acts) (kr_x r ++ [x0]) /\ bag c (kr_x r ++ [x0]) /\ (load c (kr_x r) <= kc_cap c)%Q /\ (kc_cap c < load c (kr_x r ++ [x0]))%Q /\
     kr_reward r = worth c (kr_x r) /\ kr_done r = (S (k_sub st) =? kc_len c) /\
     k_list st' = [] /\ k_sub st' = next_sub (k_sub st) /\ k_state st' = empty_bag c /\ k_best st' = best_of (k_best st) (worth c (kr_x r))).
  { intros x y s1 B L C1 C2 CH E1 E2 E3 E4 E5. rewrite (finish_ok s1 x y); auto; [|destruct B as [N B]; split; [eapply NoDup_app_l; eauto|intros; apply B; apply in_or_app; auto]|congruence].
    cbn [bind fst snd]. unfold kp_end. cbn [k_sub]. rewrite E3, D1, E4, D0, E5, D2. unfold next_sub, best_of.
    destruct (S (k_sub st) =? kc_len c); do 2 eexists; exists y; (split; [reflexivity|]); cbn; auto 20. }
  destruct (place_ok s0 [] a F) as (x & Hx & Ha & B & [(L & E)|[(L & C & E)|(L & C & st' & E & F' & EI & ES & ED & EB)]]); rewrite E; cbn [bind fst snd].
  - right. split; auto. exists [x]. rewrite <- D3. split; [apply chosen_cons; auto; constructor|]. split; auto. split; [simpl; simpl in L; lia|]. apply F.
  - left. apply (FIN [] x); auto; try (simpl in *; lia). { apply F. } rewrite <- D3. simpl. apply chosen_cons; auto. constructor.
  - destruct (fill_ok acts st' [x] F') as (l' & CH & B' & [(E1 & E2 & E3)|[(x' & st'' & N' & E' & C1 & C2 & L' & EF & R1 & R2 & R3 & R4 & R5)|(R1 & R2 & _)]]).
    { congruence. }
    + right. rewrite E1. split; auto. exists (x :: l'). rewrite <- D3. split; [apply chosen_cons; auto; congruence|]. auto.
    + left. rewrite EF. cbn [bind]. change ([x] ++ l') with (x :: l') in *. apply (FIN x' (last l' 0)); try congruence.
      * rewrite E', app_length in L'. simpl in L'. lia.
      * rewrite <- E'. rewrite <- D3. apply chosen_cons; auto. congruence.
    + exfalso. simpl in R2, LA. lia.
Qed.

Definition list_inv (st : kstate) (m : nat) : Prop := k_list st = [] /\ k_sub st = m mod kc_len c.
Lemma new_ok : exists st, kp_new c = Some st /\ k_list st = [] /\ k_sub st = 0 /\ k_counter st = 0 /\ filling st [] /\ k_best st = sent.
Proof.
  unfold kp_new. destruct (existsb _ (kc_objs c)) eqn:E.
  - apply existsb_exists in E. destruct E as (p & Hp & E). apply Qeq_bool_iff in E. destruct W as (_ & F & _). rewrite Forall_forall in F. apply F in Hp. tauto.
  - eexists; split; [reflexivity|]. do 3 (split; [reflexivity|]). split; [apply reset_filling; auto|reflexivity].
Qed.

(** Histories of the list methods. *)
Lemma list_run ops : Forall (list_op c) ops -> forall st0 st, kp_new c = Some st0 -> ofold (kp_op rnd c) st0 ops = Some st ->
  list_inv st (length (filter is_kstep ops)).
Proof.
  intros F st0 st E0. revert st. induction ops as [|o ops IH] using rev_ind; intros st E.
  - destruct new_ok as (s & Es & ?). assert (s = st) by (simpl in E; congruence). subst s. split; [tauto|]. simpl. rewrite Nat.mod_0_l; [tauto|destruct W as (?&?&?&?); lia].
  - rewrite ofold_snoc in E. destruct (ofold _ st0 ops) as [s|] eqn:E1; [|discriminate]. apply Forall_app in F. destruct F as [F Fo]. apply Forall_inv in Fo.
    destruct (IH F s eq_refl) as [I1 I2]. rewrite filter_app, app_length. destruct o as [acts|a|]; simpl in Fo; [|contradiction|].
    + simpl in E. destruct (list_step s acts) as [(r & st' & x & ES & R)|(ES & _)]; auto.
      { rewrite I2. apply Nat.mod_upper_bound. destruct W as (?&?&?&?). lia. }
      * rewrite ES in E. simpl in E. injection E as <-. destruct R as (_ & _ & _ & _ & _ & _ & R1 & R2 & _). split; auto. rewrite R2, I2, next_sub_mod.
        simpl. f_equal. lia.
      * rewrite ES in E. discriminate.
    + simpl in E. injection E as <-. simpl. rewrite Nat.add_0_r. split; auto.
Qed.

(** The one-object methods. *)
Lemma orderly_ok st : orderly rnd c st -> filling st (k_list st) /\ k_sub st < kc_len c.
Proof.
  assert (LP : 1 <= kc_len c) by (destruct W as (?&?&?&?); auto).
  induction 1 as [st E|st a r st' H [F SB] E|st H [F SB] EL].
  - destruct new_ok as (s & Es & El & Esub & _ & F & _). assert (s = st) by congruence. subst s. rewrite El, Esub. auto.
  - unfold kp_step_one in E. destruct (place_ok st _ a F) as (x & Hx & Ha & B & [(L & E')|[(L & C & E')|(L & C & st1 & E' & F' & EI & ES & ED & EB)]]); rewrite E' in E; cbn [bind fst snd] in E.
    + discriminate.
    + rewrite (finish_ok _ (k_list st) x) in E; cbn [k_state k_list k_sub]; auto; [|apply (filling_bag _ _ F)|apply F]. cbn [bind fst snd] in E.
      unfold kp_end in E. cbn [k_sub k_done k_state k_ids k_list k_counter k_best k_t] in E.
      destruct (Nat.eqb_spec (S (k_sub st)) (kc_len c)); injection E as <- <-; cbn; split; try lia;
        (split; [rewrite <- shows_nil; reflexivity|]); (split; [reflexivity|]); do 2 (split; [reflexivity|]); (split; [apply W|simpl; destruct W; lia]).
    + unfold kp_end in E. assert (EL : k_list st1 = k_list st ++ [x]) by apply F'.
      destruct (Nat.eqb_spec (k_sub st1) (kc_len c)); [lia|]. injection E as <- <-. rewrite EL. split; auto. congruence.
  - split; auto. cbn. rewrite EL. apply reset_filling; auto. destruct F as (_ & _ & _ & EC & _). rewrite EC, EL. reflexivity.
Qed.

Lemma one_step st a : orderly rnd c st ->
  (kp_step_one rnd c st a = None /\ S (length (k_list st)) = n) \/
  exists r st' x, kp_step_one rnd c st a = Some (r, st') /\ ~ In x (k_list st) /\ bag c (k_list st ++ [x]) /\ bag c (kr_x r) /\ (load c (kr_x r) <= kc_cap c)%Q /\
    ((kc_cap c < load c (k_list st ++ [x]))%Q /\ kr_x r = k_list st /\ kr_reward r = worth c (k_list st) /\ k_list st' = [] /\ k_best st' = best_of (k_best st) (kr_reward r) \/
     (load c (k_list st ++ [x]) <= kc_cap c)%Q /\ kr_x r = k_list st ++ [x] /\ kr_reward r = 0%Q /\ k_list st' = kr_x r /\ k_best st' = k_best st).
Proof.
  intros O. destruct (orderly_ok st O) as [F SB]. unfold kp_step_one. pose proof (filling_bag _ _ F) as (B0 & _).
  destruct (place_ok st _ a F) as (x & Hx & Ha & B & [(L & E')|[(L & C & E')|(L & C & st1 & E' & F' & EI & ES & ED & EB)]]); rewrite E'; cbn [bind fst snd]; auto.
  all: right; assert (NI : ~ In x (k_list st)) by (destruct B as [NB _]; apply NoDup_remove_2 in NB; rewrite app_nil_r in NB; auto).
  - rewrite (finish_ok _ (k_list st) x); cbn [k_state k_list k_sub]; auto; [|apply F]. cbn [bind fst snd].
    unfold kp_end. cbn [k_sub k_done k_state k_ids k_list k_counter k_best k_t]. unfold best_of.
    destruct (S (k_sub st) =? kc_len c); do 2 eexists; exists x; (split; [reflexivity|]); cbn; (do 3 (split; [auto|])); (split; [apply F|]); left; auto.
  - unfold kp_end. assert (EL : k_list st1 = k_list st ++ [x]) by apply F'.
    destruct (Nat.eqb_spec (k_sub st1) (kc_len c)); [lia|]. do 2 eexists; exists x; (split; [reflexivity|]); cbn; rewrite EL. do 4 (split; [auto|]). right; auto.
Qed.
End KP.

Lemma kp_list rnd c : wf_kp c -> forall ops st0 st acts, kp_new c = Some st0 -> Forall (list_op c) ops -> ofold (kp_op rnd c) st0 ops = Some st ->
  length acts = length (kc_objs c) ->
  (exists r st' x, kp_step_list rnd c st acts = Some (r, st') /\
     chosen (objects c) acts (kr_x r ++ [x]) /\ bag c (kr_x r ++ [x]) /\ (load c (kr_x r) <= kc_cap c)%Q /\ (kc_cap c < load c (kr_x r ++ [x]))%Q /\
     kr_reward r = worth c (kr_x r) /\ (kr_done r = true <-> S (length (filter is_kstep ops)) mod kc_len c = 0) /\ (k_best st' == Qmax (k_best st) (kr_reward r))%Q) \/
  (kp_step_list rnd c st acts = None /\ exists l, chosen (objects c) acts l /\ bag c l /\ length l = length (kc_objs c) /\ (load c (removelast l) <= kc_cap c)%Q).
Proof.
  intros W ops st0 st acts E0 F E LA. destruct (list_run rnd c W ops F st0 st E0 E) as [I1 I2].
  assert (LP : 1 <= kc_len c) by (destruct W as (?&?&?&?); auto).
  assert (SB : k_sub st < kc_len c) by (rewrite I2; apply Nat.mod_upper_bound; lia).
  destruct (list_step rnd c W st acts I1 SB LA) as [(r & st' & x & H1 & H2 & H3 & H4 & H5 & H6 & H7 & _ & _ & _ & H8)|H]; [left|right; auto].
  exists r, st', x. do 6 (split; [auto|]). split; [|rewrite H8, H6; apply best_of_max].
  rewrite H7, I2, <- next_sub_mod by auto. unfold next_sub. destruct (S (length (filter is_kstep ops) mod kc_len c) =? kc_len c); split; intros; try discriminate; auto.
Qed.

Lemma kp_one rnd c : wf_kp c -> forall st a, orderly rnd c st ->
  (kp_step_one rnd c st a = None /\ S (length (k_list st)) = length (kc_objs c)) \/
  exists r st' x, kp_step_one rnd c st a = Some (r, st') /\ bag c (k_list st ++ [x]) /\ bag c (kr_x r) /\ (load c (kr_x r) <= kc_cap c)%Q /\
    ((kc_cap c < load c (k_list st ++ [x]))%Q /\ kr_x r = k_list st /\ kr_reward r = worth c (kr_x r) /\ k_list st' = [] /\ (k_best st' == Qmax (k_best st) (kr_reward r))%Q \/
     (load c (k_list st ++ [x]) <= kc_cap c)%Q /\ kr_x r = k_list st ++ [x] /\ kr_reward r = 0%Q /\ k_list st' = kr_x r /\ k_best st' = k_best st).
Proof.
  intros W st a O. destruct (one_step rnd c W st a O) as [H|(r & st' & x & H1 & _ & H2 & H3 & H4 & [(A & B & C & D & E)|H5])]; [left; auto| |]; right; exists r, st', x; do 4 (split; [auto|]).
  - left. rewrite E, B, C. do 4 (split; [auto|]). apply best_of_max.
  - right; auto.
Qed.

Lemma kp_observation rnd c : wf_kp c -> forall ops st0 st acts r st', kp_new c = Some st0 -> Forall (list_op c) ops -> ofold (kp_op rnd c) st0 ops = Some st ->
  length acts = length (kc_objs c) -> kp_step_list rnd c st acts = Some (r, st') -> k_state st' = repeat (sent, sent) (length (kc_objs c)).
Proof.
  intros W ops st0 st acts r st' E0 F E LA EX. destruct (list_run rnd c W ops F st0 st E0 E) as [I1 I2].
  assert (LP : 1 <= kc_len c) by (destruct W as (?&?&?&?); auto).
  assert (SB : k_sub st < kc_len c) by (rewrite I2; apply Nat.mod_upper_bound; lia).
  destruct (list_step rnd c W st acts I1 SB LA) as [(r0 & st1 & x & H1 & _ & _ & _ & _ & _ & _ & _ & _ & H7 & _)|(H & _)]; [|congruence].
  rewrite EX in H1. injection H1 as <- <-. exact H7.
Qed.

Lemma kp_all_fit rnd c : wf_kp c -> Forall (fun p => (0 <= snd p)%Q) (kc_objs c) -> (load c (objects c) <= kc_cap c)%Q ->
  forall ops st0 st acts, kp_new c = Some st0 -> Forall (list_op c) ops -> ofold (kp_op rnd c) st0 ops = Some st ->
  length acts = length (kc_objs c) -> kp_step_list rnd c st acts = None.
Proof.
  intros W P C ops st0 st acts E0 F E LA. destruct (kp_list rnd c W ops st0 st acts E0 F E LA) as [(r & st' & x & _ & _ & [N B] & _ & H & _)|[H _]]; auto.
  exfalso. apply (Qlt_irrefl (kc_cap c)). apply Qlt_le_trans with (load c (kr_x r ++ [x])); auto. apply Qle_trans with (load c (objects c)); auto.
  apply total_sub; auto.
  - intros i Hi. apply B in Hi. apply in_seq. lia.
  - intros i Hi. apply in_seq in Hi. rewrite Forall_forall in P. apply P. eapply nth_error_In. apply obj_nth. lia.
Qed.

Lemma kp_new_iff c : (exists st, kp_new c = Some st) <-> Forall (fun p => ~ (fst p == 0)%Q) (kc_objs c).
Proof.
  unfold kp_new. split.
  - intros [st E]. destruct (existsb _ _) eqn:X; [discriminate|]. apply Forall_forall. intros p Hp Z.
    assert (existsb (fun p => Qeq_bool (fst p) 0) (kc_objs c) = true); [|congruence]. apply existsb_exists. exists p. split; auto. apply Qeq_bool_iff; auto.
  - intros F. destruct (existsb _ _) eqn:X; [|eauto]. apply existsb_exists in X. destruct X as (p & Hp & Z). rewrite Forall_forall in F.
    apply F in Hp. apply Qeq_bool_iff in Z. contradiction.
Qed.
