(** Proofs about the travelling salesman environment. *)
From Coq Require Import List Arith ZArith QArith Bool Lia Permutation.
From Verif Require Import Base BaseFacts Opt_Model Opt_Facts Opt_Facts2 Data_Proofs Env_Disc KP_Model KP_Spec KP_Proofs TSP_Model TSP_Spec.
Import ListNotations.
Open Scope nat_scope.

Section Len.
Context (rdist : Q * Q -> Q * Q -> Z).
Local Notation way := (way rdist).
Local Notation closed := (closed rdist).

Lemma way_snoc l p q : way (l ++ [p; q]) = (way (l ++ [p]) + rdist p q)%Z.
Proof.
  induction l as [|x l IH]; simpl; [lia|]. destruct l as [|y l]; simpl in *; [lia|]. rewrite IH. lia.
Qed.
Lemma closed_rot p l : closed (l ++ [p]) = closed (p :: l).
Proof.
  destruct l as [|q l]; [reflexivity|]. unfold TSP_Spec.closed. destruct (exists_last (l := q :: l)) as (l' & z & E); [congruence|].
  simpl app. cbv beta iota. change (q :: l ++ [p]) with ((q :: l) ++ [p]). rewrite last_last.
  assert (L : last (p :: q :: l) p = z). { change (p :: q :: l) with ([p] ++ q :: l). rewrite E, app_assoc. apply last_last. } rewrite L.
  change (way (p :: q :: l)) with (rdist p q + way (q :: l))%Z. rewrite E, <- app_assoc. simpl app. rewrite way_snoc. lia.
Qed.
Lemma fold_shift {A} (f : A -> Z) l : forall a, fold_left (fun acc i => (acc + f i)%Z) l a = (a + fold_left (fun acc i => (acc + f i)%Z) l 0)%Z.
Proof. induction l as [|x l IH]; intros a; simpl; [lia|]. rewrite IH, (IH (f x)). lia. Qed.
Lemma way_fold r : forall l p, fold_left (fun acc i => (acc + rdist (nth i (p :: l ++ r) blank) (nth (S i) (p :: l ++ r) blank))%Z) (seq 0 (length l)) 0%Z = way (p :: l).
Proof.
  induction l as [|q l IH]; intros p; [reflexivity|]. simpl seq. cbn [fold_left]. rewrite fold_shift, <- seq_shift.
  change (way (p :: q :: l)) with (rdist p q + way (q :: l))%Z. rewrite <- (IH q).
  simpl app. cbn [nth]. f_equal.
  clear IH. generalize 0%Z. induction (seq 0 (length l)) as [|i s IH']; intros z; [reflexivity|]. simpl. apply IH'.
Qed.
End Len.

Section TSP.
Context (rdist : Q * Q -> Q * Q -> Z) (rnd : nat -> nat) (c : tconf).
Hypothesis W : wf_tsp rdist c.
Local Notation n := (length (tc_cities c)).
Local Notation tour_len := (tour_len rdist c).
Local Notation built := (built rdist c).

Definition within (l : list nat) : Prop := forall i, In i l -> 1 <= i <= n.
Lemma city_nth i : 1 <= i <= n -> nth_error (tc_cities c) (i - 1) = Some (city c i).
Proof. intros H. unfold city. apply nth_error_nth'. lia. Qed.
Lemma city_in i : 1 <= i <= n -> In (city c i) (tc_cities c).
Proof. intros H. eapply nth_error_In. apply city_nth; auto. Qed.
Lemma city_not_sent i : 1 <= i <= n -> Qeq_bool (fst (city c i)) sent = false.
Proof.
  intros H. destruct W as (_ & F & _). rewrite Forall_forall in F. specialize (F _ (city_in i H)).
  destruct (Qeq_bool _ _) eqn:E; auto. apply Qeq_bool_iff in E. contradiction.
Qed.

(** The state holding the tour [t]. *)
Definition tshows (t : list nat) : list (Q * Q) := map (city c) t ++ repeat blank (n - length t).
Lemma tshows_nil : tshows [] = no_tour c.
Proof. unfold tshows, no_tour. simpl. rewrite Nat.sub_0_r. reflexivity. Qed.
Lemma tfb_app r l : within l -> first_blank (map (city c) l ++ blank :: r) = Some (length l).
Proof.
  induction l as [|x l IH]; intros B; [reflexivity|]. simpl. rewrite city_not_sent by (apply B; left; auto).
  rewrite IH; auto. intros i Hi; apply B; right; auto.
Qed.
Lemma tfb_shows t : within t -> length t < n -> first_blank (tshows t) = Some (length t).
Proof. intros B L. unfold tshows. replace (n - length t) with (S (n - length t - 1)) by lia. simpl repeat. apply tfb_app; auto. Qed.
Lemma tfb_full t : within t -> length t = n -> first_blank (tshows t) = None.
Proof.
  intros B L. unfold tshows. replace (n - length t) with 0 by lia. simpl. rewrite app_nil_r. clear L.
  induction t as [|x l IH]; simpl; auto. rewrite city_not_sent by (apply B; left; auto). rewrite IH; auto. intros i Hi; apply B; right; auto.
Qed.
Lemma taken_shows t : within t -> taken (tshows t) = length t.
Proof.
  intros B. unfold taken, tshows. rewrite filter_app, app_length. assert (Z : forall k, length (filter (fun p => negb (Qeq_bool (fst p) sent)) (repeat blank k)) = 0).
  { induction k; simpl; auto. } rewrite Z, Nat.add_0_r.
  induction t as [|x t IH]; simpl; auto. rewrite city_not_sent by (apply B; left; auto). simpl. f_equal. apply IH. intros i Hi; apply B; right; auto.
Qed.
Lemma cost_shows t : within t -> t <> [] -> length t <= n -> tour_cost rdist c (tshows t) = tour_len t.
Proof.
  intros B NE L. unfold tour_cost. destruct t as [|x t]; [congruence|]. set (s := tshows (x :: t)).
  assert (E : match first_blank s with Some 0 => (0, n - 1) | Some (S k) => (k, k) | None => (n - 1, n - 1) end = (length t, length t)).
  { unfold s. simpl in L. destruct (Nat.eq_dec (S (length t)) n).
    - rewrite tfb_full by auto. f_equal; lia.
    - rewrite tfb_shows by (auto; simpl; lia). reflexivity. }
  rewrite E. unfold TSP_Spec.tour_len, closed. simpl map. cbv match. rewrite <- (way_fold rdist (repeat blank (n - S (length t))) (map (city c) t)), map_length.
  f_equal.
  - f_equal. destruct (exists_last (l := x :: t)) as (t' & z & Et); [congruence|].
    assert (Lt : length t = length t'). { apply (f_equal (@length _)) in Et. rewrite app_length in Et. simpl in Et. lia. }
    change (city c x :: map (city c) t) with (map (city c) (x :: t)). unfold s, tshows. rewrite Et, map_app. simpl map. rewrite last_last, Lt.
    rewrite <- app_assoc. rewrite app_nth2 by (rewrite map_length; lia). rewrite map_length, Nat.sub_diag. reflexivity.
Qed.

Lemma put_length k x t : k <= length t -> length (put k x t) = S (length t).
Proof. intros H. unfold put. rewrite app_length, firstn_length. simpl. rewrite skipn_length. lia. Qed.
Lemma put_perm k x t : Permutation (put k x t) (x :: t).
Proof. unfold put. rewrite <- Permutation_middle, firstn_skipn. reflexivity. Qed.
Lemma ins_shows k x t : k <= length t -> length t < n -> ins k (city c x) (tshows t) = tshows (put k x t).
Proof.
  intros K L. unfold ins, tshows. rewrite put_length by auto. replace (n - length t) with (S (n - S (length t))) by lia. set (j := n - S (length t)).
  rewrite firstn_app, skipn_app, map_length. replace (k - length t) with 0 by lia. cbn [firstn skipn].
  rewrite app_nil_r, firstn_map, skipn_map. unfold put. rewrite map_app. simpl map.
  replace (repeat blank (S j)) with (repeat blank j ++ [blank]) by (rewrite <- repeat_cons; reflexivity).
  rewrite app_assoc. rewrite app_comm_cons, app_assoc, removelast_last. rewrite <- !app_assoc. reflexivity.
Qed.

(** Costs stay below the sentinel. *)
Lemma way_bound N : (forall p q, In p (tc_cities c) -> In q (tc_cities c) -> (Z.of_nat N * rdist p q <= 999999)%Z) -> forall l p, (forall q, In q (p :: l) -> In q (tc_cities c)) ->
  (Z.of_nat N * way rdist (p :: l) <= Z.of_nat (length l) * 999999)%Z.
Proof.
  intros H. induction l as [|q l IH]; intros p I; [simpl; lia|]. change (way rdist (p :: q :: l)) with (rdist p q + way rdist (q :: l))%Z.
  pose proof (H p q (I p (or_introl eq_refl)) (I q (or_intror (or_introl eq_refl)))). specialize (IH q (fun z Hz => I z (or_intror Hz))).
  rewrite Z.mul_add_distr_l. simpl length. lia.
Qed.
Lemma tour_bound t : within t -> t <> [] -> length t <= n -> (tour_len t < 1000000)%Z.
Proof.
  intros B NE L. destruct W as (N2 & _ & _ & H). assert (H' : forall p q, In p (tc_cities c) -> In q (tc_cities c) -> (Z.of_nat n * rdist p q <= 999999)%Z).
  { intros p q Hp Hq. specialize (H p q Hp Hq). lia. }
  destruct t as [|x t]; [congruence|]. unfold TSP_Spec.tour_len, closed. simpl map. cbv match.
  set (p := city c x). set (l := map (city c) t). assert (I : forall q, In q (p :: l) -> In q (tc_cities c)).
  { intros q Hq. change (p :: l) with (map (city c) (x :: t)) in Hq. apply in_map_iff in Hq. destruct Hq as (i & <- & Hi). apply city_in, B; auto. }
  pose proof (way_bound n H' l p I) as E1. assert (E2 : (Z.of_nat n * rdist (last (p :: l) p) p <= 999999)%Z).
  { apply H'; apply I; [|left; auto]. destruct (exists_last (l := p :: l)) as (l' & z & El); [congruence|]. rewrite El, last_last. apply in_or_app; simpl; auto. }
  assert (LL : length l = length t) by (unfold l; apply map_length). simpl in L. rewrite LL in E1. nia.
Qed.

(** The search for the position. *)
Lemma best_pos_ok s p f : (forall k, tour_cost rdist c (ins k p s) = f k) -> forall ks bk mx,
  (best_pos rdist c s p ks bk mx = bk /\ forall k, In k ks -> (- f k <= mx)%Z) \/
  exists a k b, ks = a ++ k :: b /\ best_pos rdist c s p ks bk mx = Some k /\ (mx < - f k)%Z /\ (forall k', In k' a -> (f k < f k')%Z) /\ (forall k', In k' b -> (f k <= f k')%Z).
Proof.
  intros HF. induction ks as [|k ks IH]; intros bk mx; [left; split; auto; contradiction|]. simpl. rewrite HF.
  destruct (Z.ltb_spec mx (- f k)) as [H|H].
  - destruct (IH (Some k) (- f k)%Z) as [[E A]|(a & k0 & b & E & R & M & A & B)].
    + right. exists [], k, ks. split; auto. split; auto. split; auto. split; [contradiction|]. intros k' Hk'. specialize (A k' Hk'). lia.
    + right. exists (k :: a), k0, b. split; [rewrite E; reflexivity|]. split; auto. split; [lia|]. split; [|auto]. intros k' [<-|Hk']; auto. lia.
  - destruct (IH bk mx) as [[E A]|(a & k0 & b & E & R & M & A & B)].
    + left. split; auto. intros k' [<-|Hk']; auto.
    + right. exists (k :: a), k0, b. split; [rewrite E; reflexivity|]. split; auto. split; [auto|]. split; [|auto]. intros k' [<-|Hk']; auto. lia.
Qed.
Lemma seq_split_nth a k b m : seq 0 m = a ++ k :: b -> k = length a /\ a = seq 0 k /\ k < m.
Proof.
  intros E. assert (L : length a < m). { apply (f_equal (@length _)) in E. rewrite seq_length, app_length in E. simpl in E. lia. }
  assert (K : k = length a). { assert (X : nth (length a) (seq 0 m) 0 = k) by (rewrite E, app_nth2, Nat.sub_diag; auto). rewrite seq_nth in X by auto. lia. }
  split; auto. split; [|lia]. rewrite K. replace m with (length a + (m - length a)) in E by lia. rewrite seq_app in E.
  apply (f_equal (firstn (length a))) in E. rewrite firstn_app, firstn_all2, seq_length, Nat.sub_diag in E by (rewrite seq_length; lia).
  rewrite firstn_app, firstn_all, Nat.sub_diag in E. simpl in E. rewrite !app_nil_r in E. auto.
Qed.
Lemma best_pos_tour bk x t : within (x :: t) -> t <> [] -> length t < n ->
  exists k, best_pos rdist c (tshows t) (city c x) (seq 0 (length t)) bk (-1000000) = Some k /\ k < length t /\
    (forall k', k' <= length t -> (tour_len (put k x t) <= tour_len (put k' x t))%Z) /\ (forall k', k' < k -> (tour_len (put k x t) < tour_len (put k' x t))%Z).
Proof.
  intros B NE L. assert (P : forall k, k <= length t -> within (put k x t) /\ put k x t <> [] /\ length (put k x t) <= n).
  { intros k K. rewrite put_length by auto. split; [|split; [|lia]].
    - intros i Hi. apply B. eapply Permutation_in; [apply put_perm|]; eauto.
    - intros E. apply (f_equal (@length _)) in E. rewrite put_length in E by auto. discriminate. }
  assert (FE : forall k, k <= length t -> tour_cost rdist c (ins k (city c x) (tshows t)) = tour_len (put k x t)).
  { intros k K. rewrite ins_shows by auto. destruct (P k K) as (A & C & D). apply cost_shows; auto. }
  assert (LT : 0 < length t) by (destruct t; [congruence|simpl; lia]).
  destruct (best_pos_ok (tshows t) (city c x) _ (fun k => eq_refl) (seq 0 (length t)) bk (-1000000)) as [[E A]|(a & k & b & E & R & M & A & C)].
  - exfalso. specialize (A 0 ltac:(apply in_seq; lia)). rewrite FE in A by lia. destruct (P 0 ltac:(lia)) as (X & Y & Z0). pose proof (tour_bound _ X Y Z0). lia.
  - exists k. destruct (seq_split_nth _ _ _ _ E) as (K1 & K2 & K3). split; auto. split; auto.
    assert (LE : forall k', k' < length t -> (tour_len (put k x t) <= tour_len (put k' x t))%Z).
    { intros k' K'. assert (I : In k' (a ++ k :: b)) by (rewrite <- E; apply in_seq; lia). apply in_app_iff in I. simpl in I.
      rewrite <- !FE by lia. destruct I as [I|[->|I]]; [specialize (A _ I); lia|lia|auto]. }
    split.
    + intros k' K'. destruct (Nat.eq_dec k' (length t)) as [->|]; [|apply LE; lia].
      replace (tour_len (put (length t) x t)) with (tour_len (put 0 x t)); [apply LE; lia|].
      unfold TSP_Spec.tour_len, put. rewrite firstn_all, skipn_all, !map_app. simpl. symmetry. apply closed_rot.
    + intros k' K'. rewrite <- !FE by lia. apply A. rewrite K2. apply in_seq. lia.
Qed.

(** A tour being built. *)
Definition touring (st : tstate) (t : list nat) : Prop :=
  t_state st = tshows t /\ Permutation (t_list st ++ t_ids st) (cities c) /\ t_counter st = length (t_list st) /\
  (t_list st = [] /\ t = [] \/ built (t_list st) t).

Lemma built_perm l t : built l t -> Permutation t l /\ l <> [].
Proof.
  induction 1 as [x|l t x k B [IH NE] K _ _]; [split; [auto|congruence]|]. split; [|destruct l; discriminate].
  rewrite put_perm, IH. apply Permutation_cons_append.
Qed.
Lemma touring_facts st t : touring st t -> NoDup (t_list st) /\ within (t_list st) /\ NoDup (t_ids st) /\ length (t_ids st) = n - length (t_list st) /\ length (t_list st) <= n /\
  Permutation t (t_list st) /\ within t.
Proof.
  intros (_ & P & _ & B). assert (N : NoDup (t_list st ++ t_ids st)) by (eapply Permutation_NoDup; [symmetry; eauto|apply seq_NoDup]).
  pose proof (Permutation_length P) as E. unfold cities in E. rewrite app_length, seq_length in E.
  assert (Wi : within (t_list st)). { intros i Hi. assert (H : In i (cities c)) by (eapply Permutation_in; eauto; apply in_or_app; auto). apply in_seq in H. lia. }
  assert (Pt : Permutation t (t_list st)) by (destruct B as [[-> ->]|B]; [auto|apply built_perm in B; tauto]).
  split; [eapply NoDup_app_l; eauto|]. split; auto. split; [eapply NoDup_r; eauto|]. split; [lia|]. split; [lia|]. split; auto.
  intros i Hi. apply Wi. eapply Permutation_in; eauto.
Qed.

Lemma tplace_ok st t a bk : touring st t -> length (t_list st) < n ->
  exists x st' t' bk', tsp_place rdist rnd c st a bk = Some (bk', st') /\ In x (t_ids st) /\ (nth_error (t_ids st) a = Some x \/ length (t_ids st) <= a) /\
    t_list st' = t_list st ++ [x] /\ t_ids st' = remove Nat.eq_dec x (t_ids st) /\ touring st' t' /\ built (t_list st ++ [x]) t' /\
    t_sub st' = t_sub st /\ t_done st' = t_done st /\ t_best st' = t_best st.
Proof.
  intros T L. destruct (touring_facts _ _ T) as (N1 & Wi & N2 & LI & _ & PT & Wt). destruct T as (ES & P & EC & B).
  destruct (pick_ok rnd (t_t st) (t_ids st) a N2) as (x & EP & Hx & Ha). { intros C. rewrite C in LI. simpl in LI. lia. }
  assert (P' : Permutation ((t_list st ++ [x]) ++ remove Nat.eq_dec x (t_ids st)) (cities c)).
  { rewrite <- app_assoc. simpl. rewrite <- (remove_perm x (t_ids st) N2 Hx). auto. }
  assert (Wx : 1 <= x <= n). { assert (H : In x (cities c)) by (eapply Permutation_in; [exact P|]; apply in_or_app; auto). apply in_seq in H. lia. }
  unfold tsp_place. rewrite EP. cbn [bind fst snd]. rewrite city_nth by auto. cbn [bind]. rewrite EC.
  assert (G : (length (t_list st) <? n) && (2 <=? n) = true). { apply andb_true_intro. split; [apply Nat.ltb_lt; auto|apply Nat.leb_le; apply W]. }
  rewrite G. cbn [negb]. rewrite ES, taken_shows by auto.
  assert (LT : length t = length (t_list st)) by (apply Permutation_length; auto).
  destruct (Nat.eqb_spec (length t) 0) as [Z|Z].
  - assert (t = []) by (destruct t; [auto|discriminate]). subst t. assert (EL : t_list st = []) by (destruct (t_list st); [auto|discriminate]).
    cbn [bind fst snd]. rewrite EL. exists x. eexists. exists [x]. eexists. split; [reflexivity|]. cbn [t_list t_ids t_sub t_done t_best].
    do 4 (split; [auto|]). split; [|split; [constructor|auto]].
    unfold touring. cbn [t_state t_list t_ids t_counter]. split; [|split; [rewrite EL in P'; exact P'|split; [reflexivity|right; constructor]]].
    unfold tshows. simpl. rewrite Nat.sub_0_r. destruct n as [|n']; [lia|]. simpl. rewrite Nat.sub_0_r. reflexivity.
  - destruct (best_pos_tour bk x t) as (k & EK & K & M1 & M2); [intros i [<-|Hi]; auto|destruct t; [simpl in Z; lia|congruence]|lia|]. rewrite EK. cbn [bind fst snd].
    rewrite ins_shows by lia. exists x. eexists. exists (put k x t). eexists. split; [reflexivity|]. cbn [t_list t_ids t_sub t_done t_best].
    assert (B' : built (t_list st ++ [x]) (put k x t)). { destruct B as [[_ ->]|B]; [simpl in Z; lia|]. constructor; auto. lia. }
    do 4 (split; [auto|]). split; [|split; [auto|auto]]. unfold touring. cbn [t_state t_list t_ids t_counter]. do 2 (split; [auto|]). split; [rewrite app_length; simpl; lia|auto].
Qed.

Lemma tfill_ok : forall acts st t bk, touring st t -> t_list st <> [] -> length (t_list st) + length acts = n ->
  exists l' t' st', chosen (t_ids st) acts l' /\ length l' = length acts /\ tsp_fill rdist rnd c st acts bk = Some st' /\ touring st' t' /\ t_list st' = t_list st ++ l' /\
    t_sub st' = t_sub st /\ t_done st' = t_done st /\ t_best st' = t_best st.
Proof.
  induction acts as [|a acts IH]; intros st t bk T NE L; simpl in L.
  - exists [], t, st. rewrite app_nil_r. split; [constructor|]. auto 10.
  - cbn [tsp_fill]. assert (EC : t_counter st =? 0 = false). { destruct T as (_ & _ & EC & _). rewrite EC. destruct (t_list st); [congruence|reflexivity]. }
    rewrite EC. destruct (tplace_ok st t a bk T) as (x & st1 & t1 & bk1 & E & Hx & Ha & EL & EI & T1 & _ & E1 & E2 & E3); [lia|]. rewrite E. cbn [bind fst snd].
    destruct (IH st1 t1 bk1 T1) as (l' & t' & st' & C & LL & E' & T' & EL' & F1 & F2 & F3).
    { rewrite EL. destruct (t_list st); discriminate. } { rewrite EL, app_length. simpl. lia. }
    exists (x :: l'), t', st'. rewrite EI in C. split; [apply chosen_cons; auto|]. split; [simpl; lia|]. split; auto. split; auto.
    rewrite EL', EL, <- app_assoc. split; auto. rewrite F1, F2, F3. auto.
Qed.

Lemma treset_touring st : t_list st = [] -> t_counter st = 0 -> touring (tsp_reset c st) [].
Proof. intros EL EC. unfold touring. rewrite tshows_nil. cbn [tsp_reset t_state t_list t_ids t_counter]. rewrite EL, EC. simpl app. split; [reflexivity|]. split; [apply Permutation_refl|]. auto. Qed.

Definition tnext_sub (k : nat) : nat := if S k =? tc_len c then 0 else S k.
Lemma tnext_sub_mod m : tnext_sub (m mod tc_len c) = S m mod tc_len c.
Proof.
  destruct W as (_ & _ & L & _). unfold tnext_sub. pose proof (Nat.mod_upper_bound m (tc_len c) ltac:(lia)).
  pose proof (Nat.div_mod m (tc_len c) ltac:(lia)). destruct (Nat.eqb_spec (S (m mod tc_len c)) (tc_len c)) as [E|E].
  - apply Nat.mod_unique with (S (m / tc_len c)); lia.
  - apply Nat.mod_unique with (m / tc_len c); lia.
Qed.

Lemma tfinish_ok st t : touring st t -> length (t_list st) = n -> t_sub st < tc_len c ->
  Permutation t (cities c) /\ Permutation (t_list st) (cities c) /\ built (t_list st) t /\
  tsp_finish rdist c st = Some (- tour_len t, t_list st, TState (no_tour c) (cities c) [] (t_counter st) (S (t_sub st)) (t_done st)
                              (Z.max (t_best st) (- tour_len t)) (t_t st))%Z.
Proof.
  intros T L SB. destruct (touring_facts _ _ T) as (_ & _ & _ & LI & _ & PT & Wt). destruct T as (ES & P & EC & B).
  assert (EI : t_ids st = []) by (destruct (t_ids st); [auto|simpl in LI; lia]). rewrite EI, app_nil_r in P.
  assert (N2 : 2 <= n) by apply W.
  destruct B as [[E _]|B]; [rewrite E in L; simpl in L; lia|]. split; [rewrite PT; auto|]. split; auto. split; auto.
  unfold tsp_finish. rewrite ES, cost_shows; auto.
  - destruct (Nat.eqb_spec (S (t_sub st)) (S (tc_len c))); [lia|]. unfold cities, all_cities. do 3 f_equal.
    destruct (Z.ltb_spec 0 (- tour_len t - t_best st)); lia.
  - intros E. rewrite E in PT. apply Permutation_length in PT. simpl in PT. lia.
  - rewrite (Permutation_length PT). lia.
Qed.

Lemma tlist_step st acts : t_list st = [] -> t_sub st < tc_len c -> length acts = n ->
  exists r st' t, tsp_step_list rdist rnd c st acts = Some (r, st') /\ chosen (cities c) acts (tr_x r) /\ Permutation (tr_x r) (cities c) /\ Permutation t (cities c) /\
    built (tr_x r) t /\ tr_reward r = (- tour_len t)%Z /\ tr_done r = (S (t_sub st) =? tc_len c) /\
    t_list st' = [] /\ t_sub st' = tnext_sub (t_sub st) /\ t_state st' = no_tour c /\ t_best st' = Z.max (t_best st) (tr_reward r).
Proof.
  intros EL SB LA. destruct acts as [|a acts]; [simpl in LA; destruct W; lia|]. unfold tsp_step_list. cbn [tsp_fill t_counter]. change (0 =? 0) with true. cbv iota.
  set (s0 := tsp_reset c _). assert (T : touring s0 []) by (apply treset_touring; auto).
  assert (D : t_done s0 = false /\ t_sub s0 = t_sub st /\ t_best s0 = t_best st /\ t_ids s0 = cities c /\ t_list s0 = []) by (unfold s0; auto). destruct D as (D0 & D1 & D2 & D3 & D4).
  destruct (tplace_ok s0 [] a None T) as (x & st1 & t1 & bk1 & E & Hx & Ha & EL1 & EI & T1 & _ & E1 & E2 & E3). { rewrite D4. simpl. destruct W; lia. }
  rewrite E. cbn [bind fst snd]. rewrite D4 in EL1. simpl in EL1.
  destruct (tfill_ok acts st1 t1 bk1 T1) as (l' & t' & st2 & C & LL & E' & T' & EL' & F1 & F2 & F3). { congruence. } { rewrite EL1. simpl in *. lia. }
  rewrite E'. cbn [bind]. rewrite EL1 in EL'. simpl in EL'.
  destruct (tfinish_ok st2 t' T') as (P1 & P2 & B & EF). { rewrite EL'. simpl in *. lia. } { congruence. }
  rewrite EF. cbn [bind fst snd]. unfold tsp_end. cbn [t_sub]. rewrite F1, E1, D1. unfold tnext_sub. rewrite EI, D3 in C.
  assert (CH : chosen (cities c) (a :: acts) (t_list st2)) by (rewrite EL'; apply chosen_cons; [rewrite <- D3; auto|rewrite <- D3; auto|auto]).
  destruct (S (t_sub st) =? tc_len c); do 2 eexists; exists t'; (split; [reflexivity|]); cbn; rewrite ?F3, ?E3, ?D2, ?F2, ?E2, ?D0; auto 15.
Qed.

Lemma tlist_run ops : Forall (tlist_op c) ops -> forall st, ofold (tsp_op rdist rnd c) (tsp_new c) ops = Some st ->
  t_list st = [] /\ t_sub st = length (filter is_tstep ops) mod tc_len c.
Proof.
  assert (LP : 1 <= tc_len c) by (destruct W as (?&?&?&?); auto).
  intros F. induction ops as [|o ops IH] using rev_ind; intros st E.
  - injection E as <-. split; auto. cbn [tsp_new tsp_reset t_sub filter length]. rewrite Nat.mod_0_l; lia.
  - rewrite ofold_snoc in E. destruct (ofold _ (tsp_new c) ops) as [s|] eqn:E1; [|discriminate]. apply Forall_app in F. destruct F as [F Fo]. apply Forall_inv in Fo.
    destruct (IH F s eq_refl) as [I1 I2]. rewrite filter_app, app_length. destruct o as [acts|a|]; simpl in Fo; [|contradiction|].
    + simpl in E. destruct (tlist_step s acts) as (r & st' & t & ES & R); auto.
      { rewrite I2. apply Nat.mod_upper_bound. lia. }
      rewrite ES in E. simpl in E. injection E as <-. destruct R as (_ & _ & _ & _ & _ & _ & R1 & R2 & _). split; auto. rewrite R2, I2, tnext_sub_mod.
      simpl. f_equal. lia.
    + simpl in E. injection E as <-. simpl. rewrite Nat.add_0_r. split; auto.
Qed.

Lemma tone_step st t a : touring st t -> length (t_list st) < n -> t_sub st < tc_len c ->
  exists r st' x t', tsp_step_one rdist rnd c st a = Some (r, st') /\ tr_x r = t_list st ++ [x] /\ NoDup (tr_x r) /\ within (tr_x r) /\ built (tr_x r) t' /\
    (length (tr_x r) < n /\ tr_reward r = (1000 * tour_len t')%Z /\ t_list st' = tr_x r /\ t_state st' = tshows t' /\ t_best st' = t_best st /\ touring st' t' /\ t_sub st' < tc_len c \/
     Permutation (tr_x r) (cities c) /\ Permutation t' (cities c) /\ tr_reward r = (- tour_len t')%Z /\ t_list st' = [] /\ t_best st' = Z.max (t_best st) (tr_reward r) /\ touring st' [] /\ t_sub st' < tc_len c).
Proof.
  intros T L SB. unfold tsp_step_one. destruct (tplace_ok st t a None T L) as (x & st1 & t1 & bk1 & E & Hx & Ha & EL & EI & T1 & B & E1 & E2 & E3).
  rewrite E. cbn [bind fst snd]. destruct (touring_facts _ _ T1) as (N1 & W1 & _ & _ & L1 & PT & Wt). pose proof T1 as (ES & _ & EC & _). rewrite ES.
  assert (LT : length t1 = length (t_list st1)) by (apply Permutation_length; auto).
  assert (LP : 0 < length (t_list st1)) by (rewrite EL, app_length; simpl; lia).
  destruct (Nat.eq_dec (length t1) n) as [F|F].
  - rewrite tfb_full by auto. destruct (tfinish_ok st1 t1 T1) as (P1 & P2 & B' & EF); [lia|congruence|]. rewrite EF. cbn [bind fst snd]. unfold tsp_end. cbn [t_sub t_done t_state t_ids t_list t_counter t_best t_t].
    assert (T0 : forall k d b z, touring (TState (no_tour c) (cities c) [] 0 k d b z) []).
    { intros. unfold touring. cbn [t_state t_list t_ids t_counter]. simpl app. rewrite <- tshows_nil. split; [reflexivity|]. split; [apply Permutation_refl|]. auto. }
    rewrite E1. destruct (Nat.eqb_spec (S (t_sub st)) (tc_len c)).
    all: do 2 eexists; exists x, t1; (split; [reflexivity|]); cbn; (do 3 (split; [auto|])); (split; [rewrite EL; auto|]); right; rewrite E3; do 5 (split; [auto|]); split; [apply T0|lia].
  - rewrite tfb_shows by (auto; lia). rewrite cost_shows; auto; [|destruct t1; [simpl in LT; lia|congruence]|lia]. unfold tsp_end.
    destruct (Nat.eqb_spec (t_sub st1) (tc_len c)); [lia|]. do 2 eexists; exists x, t1; (split; [reflexivity|]); cbn [tr_x tr_reward]. do 3 (split; [auto|]). split; [rewrite EL; auto|].
    left. split; [lia|]. split; [lia|]. do 4 (split; [auto|]). lia.
Qed.
Lemma torderly_ok st : torderly rdist c rnd st -> exists t, touring st t /\ length (t_list st) < n /\ t_sub st < tc_len c.
Proof.
  assert (LP : 1 <= tc_len c) by (destruct W as (?&?&?&?); auto). assert (N2 : 2 <= n) by apply W.
  induction 1 as [|st a r st' H (t & T & L & SB) E|st H (t & T & L & SB) EL].
  - exists []. split; [apply treset_touring; auto|]. cbn. lia.
  - destruct (tone_step st t a T L SB) as (r' & s' & x & t' & E' & EX & _ & _ & _ & R). rewrite E in E'. injection E' as <- <-.
    destruct R as [(R1 & _ & R2 & _ & _ & R3 & R4)|(_ & _ & _ & R2 & _ & R3 & R4)].
    + exists t'. rewrite R2. auto.
    + exists []. rewrite R2. split; auto. split; auto. simpl. lia.
  - exists []. split; [apply treset_touring; auto; destruct T as (_ & _ & EC & _); rewrite EC, EL; reflexivity|]. cbn. rewrite EL. split; auto. simpl; lia.
Qed.
End TSP.

Lemma tsp_list rdist rnd c : wf_tsp rdist c -> forall ops st acts, Forall (tlist_op c) ops -> ofold (tsp_op rdist rnd c) (tsp_new c) ops = Some st -> length acts = length (tc_cities c) ->
  exists r st' t, tsp_step_list rdist rnd c st acts = Some (r, st') /\ chosen (cities c) acts (tr_x r) /\ Permutation (tr_x r) (cities c) /\ Permutation t (cities c) /\
    built rdist c (tr_x r) t /\ tr_reward r = (- tour_len rdist c t)%Z /\ (tr_done r = true <-> S (length (filter is_tstep ops)) mod tc_len c = 0) /\
    t_best st' = Z.max (t_best st) (tr_reward r) /\ t_state st' = repeat (sent, sent) (length (tc_cities c)).
Proof.
  intros W ops st acts F E LA. destruct (tlist_run rdist rnd c W ops F st E) as [I1 I2]. assert (LP : 1 <= tc_len c) by (destruct W as (?&?&?&?); auto).
  destruct (tlist_step rdist rnd c W st acts I1) as (r & st' & t & H1 & H2 & H3 & H4 & H5 & H6 & H7 & _ & _ & H8 & H9); auto.
  { rewrite I2. apply Nat.mod_upper_bound. lia. }
  exists r, st', t. do 6 (split; [auto|]). split; [|auto].
  rewrite H7, I2, <- (tnext_sub_mod rdist) by auto. unfold tnext_sub. destruct (S (length (filter is_tstep ops) mod tc_len c) =? tc_len c); split; intros; try discriminate; auto.
Qed.

Lemma tsp_one rdist rnd c : wf_tsp rdist c -> forall st a, torderly rdist c rnd st ->
  exists r st' x t, tsp_step_one rdist rnd c st a = Some (r, st') /\ tr_x r = t_list st ++ [x] /\ NoDup (tr_x r) /\ incl (tr_x r) (cities c) /\ built rdist c (tr_x r) t /\
    (length (tr_x r) < length (tc_cities c) /\ tr_reward r = (1000 * tour_len rdist c t)%Z /\ t_list st' = tr_x r /\
       t_state st' = map (city c) t ++ repeat (sent, sent) (length (tc_cities c) - length t) /\ t_best st' = t_best st \/
     Permutation (tr_x r) (cities c) /\ Permutation t (cities c) /\ tr_reward r = (- tour_len rdist c t)%Z /\ t_list st' = [] /\ t_best st' = Z.max (t_best st) (tr_reward r)).
Proof.
  intros W st a O. destruct (torderly_ok rdist rnd c W st O) as (t0 & T & L & SB).
  destruct (tone_step rdist rnd c W st t0 a T L SB) as (r & st' & x & t & H1 & H2 & H3 & H4 & H5 & R). exists r, st', x, t. do 3 (split; [auto|]).
  split; [intros i Hi; apply H4 in Hi; apply in_seq; lia|]. split; auto. destruct R as [(R1 & R2 & R3 & R4 & R5 & _)|(R1 & R2 & R3 & R4 & R5 & _)]; [left|right]; auto 10.
Qed.
