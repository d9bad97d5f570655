(** Proofs about callbacks: EveryNTimesteps (C75). *)
From Coq Require Import List Arith ZArith QArith Bool Lia Lqa.
From Verif Require Import Base BaseFacts Opt_Model CB_Model CB_Spec CB_Proofs.
Import ListNotations.
Open Scope nat_scope.

Lemma last_cons {A} (l : list A) x d : last (x :: l) d = last l x.
Proof. revert x d. induction l as [|y l IH]; intros x d; [reflexivity|]. change (last (x :: y :: l) d) with (last (y :: l) d). rewrite !IH. reflexivity. Qed.
Lemma last_snoc {A} (l : list A) x d : last (l ++ [x]) d = x.
Proof. revert d. induction l as [|y l IH]; intros d; [reflexivity|]. rewrite <- app_comm_cons, last_cons. apply IH. Qed.

Definition latest (sel : list bool) (tss : list nat) (j last0 : nat) : nat := last (select (firstn j sel) (firstn j tss)) last0.
Definition ticks (sel : list bool) (j : nat) : nat := length (filter (fun b => b) (firstn j sel)).

Lemma select_app {A} s1 (l1 : list A) s2 l2 : length s1 = length l1 -> select (s1 ++ s2) (l1 ++ l2) = select s1 l1 ++ select s2 l2.
Proof. revert l1. induction s1 as [|[] s1 IH]; intros [|x l1] L; try discriminate L; simpl; f_equal; auto. Qed.
Lemma firstn_S {A} (l : list A) j x : nth_error l j = Some x -> firstn (S j) l = firstn j l ++ [x].
Proof. revert j. induction l as [|y l IH]; intros [|j] H; try discriminate H; simpl in *. - injection H as ->. reflexivity. - f_equal. apply IH; auto. Qed.
Lemma latest_S sel tss j d b ts : length sel = length tss -> nth_error sel j = Some b -> nth_error tss j = Some ts ->
  latest sel tss (S j) d = if b then ts else latest sel tss j d.
Proof.
  intros L Hb Ht. unfold latest. rewrite (firstn_S _ _ _ Hb), (firstn_S _ _ _ Ht), select_app.
  - destruct b; simpl; [apply last_snoc|]. rewrite app_nil_r. reflexivity.
  - rewrite !firstn_length. lia.
Qed.

Lemma select_length {A} sel (l : list A) : length sel = length l -> length (select sel l) = length (filter (fun b => b) sel).
Proof. revert l. induction sel as [|[] s IH]; intros [|x l] L; try discriminate L; simpl; auto. Qed.
Lemma spread_nth sel out j : length out = length (filter (fun b => b) sel) ->
  nth_error (spread sel out) j = match nth_error sel j with Some true => nth_error out (ticks sel j) | Some false => Some idle | None => None end.
Proof.
  unfold ticks. revert out j. induction sel as [|[] s IH]; intros out j L; simpl in *.
  - destruct j; reflexivity.
  - destruct out as [|o out]; [discriminate|]. destruct j as [|j]; simpl; [reflexivity|]. apply IH. simpl in L. lia.
  - destruct j as [|j]; simpl; [reflexivity|]. apply IH; auto.
Qed.
Lemma spread_length sel out : length out = length (filter (fun b => b) sel) -> length (spread sel out) = length sel.
Proof. revert out. induction sel as [|[] s IH]; intros out L; simpl in *; auto. destruct out; [discriminate|]. simpl in *. f_equal. auto. Qed.

Section S.
  Context (ans : nat -> nat -> answer) (ev : nat -> nat -> Q).
  Notation on_step := (on_step ans ev).
  Notation calls := (calls ans ev).

  Lemma every_run k last0 n child tss c' out : calls (Every k last0 n child) tss = Some (c', out) ->
    exists sel child' cout, length sel = length tss /\ calls child (select sel tss) = Some (child', cout) /\ out = spread sel cout /\
      forall j ts, nth_error tss j = Some ts -> nth_error sel j = Some (latest sel tss j last0 + k <=? ts).
  Proof.
    revert last0 n child out. induction tss as [|ts r IH]; intros last0 n child out H.
    - simpl in H. injection H as <- <-. exists [], child, []. repeat split; auto. intros [|j]; discriminate.
    - apply calls_cons in H. destruct H as (d & e & a & o & E & F & ->). simpl in E. destruct (last0 + k <=? ts) eqn:T.
      + destruct (on_step None ts child) as [[[ch1 e1] a1]|] eqn:C; [|discriminate]. simpl in E. injection E as <- <- <-.
        destruct (IH _ _ _ _ F) as (sel & child' & cout & L & Cc & -> & Hs).
        exists (true :: sel), child', ((e1, a1) :: cout). split; [simpl; auto|]. split.
        { apply calls_cons. exists ch1, e1, a1, cout. auto. }
        split; [reflexivity|]. intros [|j] t Hj; simpl in Hj.
        * injection Hj as <-. unfold latest. simpl. rewrite T. reflexivity.
        * simpl. rewrite (Hs j t Hj). unfold latest. simpl firstn. change (select (true :: firstn j sel) (ts :: firstn j r)) with (ts :: select (firstn j sel) (firstn j r)). rewrite last_cons. reflexivity.
      + injection E as <- <- <-. destruct (IH _ _ _ _ F) as (sel & child' & cout & L & Cc & -> & Hs).
        exists (false :: sel), child', cout. split; [simpl; auto|]. split; [exact Cc|]. split; [reflexivity|]. intros [|j] t Hj; simpl in Hj.
        * injection Hj as <-. unfold latest. simpl. rewrite T. reflexivity.
        * simpl. rewrite (Hs j t Hj). reflexivity.
  Qed.

  Lemma nth_steps e n j : j < n -> nth_error (steps_of e n) j = Some (e * S j).
  Proof.
    intros H. unfold steps_of. apply (map_nth_error (fun j => e * S j)). rewrite (nth_error_nth' _ 0) by (rewrite seq_length; auto). f_equal. apply seq_nth; auto.
  Qed.
  Lemma steps_length e n : length (steps_of e n) = n.
  Proof. unfold steps_of. rewrite map_length. apply seq_length. Qed.

  (** Positions of the triggers when the timesteps are regular. *)
  Lemma regular_sel k e n tss sel : 1 <= k -> 1 <= e -> length sel = length tss -> (forall j, j < n -> nth_error tss j = Some (e * S j)) ->
    (forall j ts, nth_error tss j = Some ts -> nth_error sel j = Some (latest sel tss j 0 + k <=? ts)) ->
    let p := (k + e - 1) / e in
    forall j, j <= n -> latest sel tss j 0 = e * (p * (j / p)) /\ (j < n -> nth_error sel j = Some (S j mod p =? 0)).
  Proof.
    intros Hk He L Ht Hs p. 
    assert (P1 : k <= p * e). { pose proof (Nat.div_mod (k + e - 1) e ltac:(lia)). pose proof (Nat.mod_upper_bound (k + e - 1) e ltac:(lia)). fold p in H. nia. }
    assert (P2 : p * e < k + e). { pose proof (Nat.mul_div_le (k + e - 1) e ltac:(lia)). fold p in H. nia. }
    assert (P3 : 1 <= p) by (destruct p; [simpl in P1; lia|lia]).
    assert (Tr : forall j, (e * (p * (j / p)) + k <=? e * S j) = (S j mod p =? 0)).
    { intros j. pose proof (Nat.div_mod j p ltac:(lia)) as D. pose proof (Nat.mod_upper_bound j p ltac:(lia)) as U. set (q := j / p) in *. set (r := j mod p) in *. clearbody q r.
      assert (M : S j mod p = (S r) mod p). { subst j. replace (S (p * q + r)) with (S r + q * p) by lia. apply Nat.mod_add. lia. }
      destruct (Nat.eq_dec (S r) p) as [Er|Nr].
      - assert (S j mod p = 0) as -> by (rewrite M, Er; apply Nat.mod_same; lia). simpl. apply Nat.leb_le. subst j. nia.
      - assert (S j mod p = S r) as -> by (rewrite M; apply Nat.mod_small; lia). simpl. apply Nat.leb_gt. subst j. nia. }
    induction j as [|j IH]; intros Hj.
    - split.
      + unfold latest. rewrite Nat.div_0_l by lia. simpl. lia.
      + intros H0. rewrite (Hs 0 _ (Ht 0 H0)). f_equal. unfold latest. simpl select. simpl last. rewrite <- Tr, Nat.div_0_l by lia. f_equal. lia.
    - destruct (IH ltac:(lia)) as (I1 & I2). specialize (I2 ltac:(lia)).
      assert (La : latest sel tss (S j) 0 = e * (p * (S j / p))).
      { rewrite (latest_S sel tss j 0 _ _ L I2 (Ht j ltac:(lia))), I1.
        pose proof (Nat.div_mod j p ltac:(lia)) as D. pose proof (Nat.mod_upper_bound j p ltac:(lia)) as U.
        destruct (S j mod p =? 0) eqn:M.
        - apply Nat.eqb_eq in M. pose proof (Nat.div_mod (S j) p ltac:(lia)). rewrite M in H. f_equal. lia.
        - apply Nat.eqb_neq in M. do 2 f_equal. apply (Nat.div_unique (S j) p (j / p) (S (j mod p))); [|lia].
          destruct (Nat.eq_dec (S (j mod p)) p) as [Er|]; [|lia]. exfalso. apply M. replace (S j) with ((j / p + 1) * p) by lia. apply Nat.mod_mul. lia. }
      split; auto. intros Hj'. rewrite (Hs (S j) _ (Ht _ Hj')). f_equal. rewrite La. apply Tr.
  Qed.

  Lemma select_map {A} (f : nat -> bool) (g : nat -> A) l : select (map f l) (map g l) = map g (filter f l).
  Proof. induction l as [|x l IH]; simpl; auto. destruct (f x); simpl; congruence. Qed.
  Lemma mult_filter p n : 1 <= p -> filter (fun j => S j mod p =? 0) (seq 0 n) = map (fun i => p * S i - 1) (seq 0 (n / p)).
  Proof.
    intros Hp. induction n as [|n IH]. { rewrite Nat.div_0_l by lia. reflexivity. }
    rewrite seq_S, filter_app, IH. simpl. pose proof (Nat.div_mod n p ltac:(lia)) as D. pose proof (Nat.mod_upper_bound n p ltac:(lia)) as U.
    destruct (Nat.eq_dec (S (n mod p)) p) as [E|N].
    - assert (E1 : S n = (n / p + 1) * p) by lia. assert (S n mod p = 0) as -> by (rewrite E1; apply Nat.mod_mul; lia).
      assert (S n / p = S (n / p)) as -> by (rewrite E1, Nat.div_mul by lia; lia). rewrite seq_S, map_app. simpl. do 2 f_equal. f_equal. lia.
    - assert (S n / p = n / p) as ->. { symmetry. apply (Nat.div_unique (S n) p (n / p) (S (n mod p))); lia. }
      assert (M : S n mod p = S (n mod p)). { symmetry. apply (Nat.mod_unique (S n) p (n / p) (S (n mod p))); lia. } rewrite M. simpl. apply app_nil_r.
  Qed.
  Lemma list_ext {A} (l1 l2 : list A) : length l1 = length l2 -> (forall j, j < length l1 -> nth_error l1 j = nth_error l2 j) -> l1 = l2.
  Proof.
    revert l2. induction l1 as [|x l1 IH]; intros [|y l2] L H; try discriminate L; auto.
    pose proof (H 0 ltac:(simpl; lia)) as H0. simpl in H0. injection H0 as ->. f_equal. apply IH; [simpl in L; lia|]. intros j Hj. apply (H (S j)). simpl. lia.
  Qed.

  Lemma every_regular k e n child c' out : 1 <= k -> 1 <= e -> calls (Every k 0 0 child) (steps_of e n) = Some (c', out) ->
    let p := (k + e - 1) / e in
    exists child' cout, calls child (steps_of (e * p) (n / p)) = Some (child', cout) /\
      forall j, j < n -> nth_error out j = if S j mod p =? 0 then nth_error cout (S j / p - 1) else Some idle.
  Proof.
    intros Hk He H p. destruct (every_run _ _ _ _ _ _ _ H) as (sel & child' & cout & L & Cc & -> & Hs).
    assert (P3 : 1 <= p). { unfold p. apply Nat.div_le_lower_bound; lia. }
    pose proof (regular_sel k e n _ sel Hk He L (nth_steps e n) Hs) as R. fold p in R.
    assert (Es : sel = map (fun j => S j mod p =? 0) (seq 0 n)).
    { apply list_ext. - rewrite map_length, seq_length, L. apply steps_length.
      - rewrite L, steps_length. intros j Hj. rewrite (proj2 (R j ltac:(lia)) Hj). symmetry. apply (map_nth_error (fun j => S j mod p =? 0)).
        rewrite (nth_error_nth' _ 0) by (rewrite seq_length; auto). f_equal. apply seq_nth; auto. }
    assert (Et : select sel (steps_of e n) = steps_of (e * p) (n / p)).
    { rewrite Es. unfold steps_of. rewrite select_map, mult_filter by auto. rewrite map_map. apply map_ext. intros i. nia. }
    rewrite Et in Cc. exists child', cout. split; auto. intros j Hj.
    assert (Lc : length cout = length (filter (fun b => b) sel)).
    { rewrite <- (select_length sel (steps_of e n) L), Et. apply (calls_length _ _ _ _ _ _ Cc). }
    rewrite spread_nth by auto. rewrite (proj2 (R j ltac:(lia)) Hj). destruct (S j mod p =? 0) eqn:M; auto.
    f_equal. unfold ticks. rewrite Es.
    assert (Hf : firstn j (map (fun j0 => S j0 mod p =? 0) (seq 0 n)) = map (fun j0 => S j0 mod p =? 0) (seq 0 j)).
    { replace n with (j + (n - j)) by lia. rewrite seq_app, map_app, firstn_app, map_length, seq_length, Nat.sub_diag. simpl. rewrite app_nil_r. rewrite firstn_all2; auto. rewrite map_length, seq_length. lia. }
    rewrite Hf. 
    assert (Hc : length (filter (fun b => b) (map (fun j0 => S j0 mod p =? 0) (seq 0 j))) = length (filter (fun j0 => S j0 mod p =? 0) (seq 0 j))).
    { clear. induction (seq 0 j) as [|x l IH]; simpl; auto. destruct (S x mod p =? 0); simpl; auto. }
    rewrite Hc, mult_filter, map_length, seq_length by auto.
    apply Nat.eqb_eq in M. pose proof (Nat.div_mod (S j) p ltac:(lia)) as D. rewrite M in D.
    assert (1 <= S j / p) by (destruct (S j / p); lia). symmetry. assert (E : j / p = S j / p - 1); [|lia]. symmetry. apply (Nat.div_unique j p (S j / p - 1) (p - 1)); [lia|]. nia.
  Qed.

  (** A second learn of at most the same length. *)
  Lemma every_second k e n1 n2 child c' out : 1 <= k -> 1 <= e -> n2 <= n1 -> calls (Every k 0 0 child) (steps_of e n1 ++ steps_of e n2) = Some (c', out) ->
    forall j, n1 <= j -> j < n1 + n2 -> nth_error out j = Some idle.
  Proof.
    intros Hk He Hn H. destruct (every_run _ _ _ _ _ _ _ H) as (sel & child' & cout & L & Cc & -> & Hs).
    set (tss := steps_of e n1 ++ steps_of e n2) in *.
    assert (T1 : forall j, j < n1 -> nth_error tss j = Some (e * S j)). { intros j Hj. unfold tss. rewrite nth_error_app1 by (rewrite steps_length; auto). apply nth_steps; auto. }
    assert (T2 : forall j, j < n2 -> nth_error tss (n1 + j) = Some (e * S j)). { intros j Hj. unfold tss. rewrite nth_error_app2 by (rewrite steps_length; lia). rewrite steps_length. replace (n1 + j - n1) with j by lia. apply nth_steps; auto. }
    pose proof (regular_sel k e n1 tss sel Hk He L T1 Hs) as R. cbv zeta in R. set (p := (k + e - 1) / e) in *.
    assert (P3 : 1 <= p). { unfold p. apply Nat.div_le_lower_bound; lia. }
    assert (P2 : p * e < k + e). { pose proof (Nat.mul_div_le (k + e - 1) e ltac:(lia)). fold p in H0. nia. }
    assert (I : forall i, i <= n2 -> latest sel tss (n1 + i) 0 = e * (p * (n1 / p)) /\ (i < n2 -> nth_error sel (n1 + i) = Some false)).
    { assert (S1 : forall i, i < n2 -> latest sel tss (n1 + i) 0 = e * (p * (n1 / p)) -> nth_error sel (n1 + i) = Some false).
      { intros i Hi E. rewrite (Hs _ _ (T2 i Hi)), E. f_equal. apply Nat.leb_gt.
        pose proof (Nat.div_mod n1 p ltac:(lia)) as D. pose proof (Nat.mod_upper_bound n1 p ltac:(lia)) as U. set (q := n1 / p) in *. clearbody q.
        assert (e * S i <= e * n1) by (apply Nat.mul_le_mono_l; lia). assert (e * n1 <= e * (p * q) + e * (p - 1)) by (rewrite <- Nat.mul_add_distr_l; apply Nat.mul_le_mono_l; lia).
        assert (e * (p - 1) < k) by nia. lia. }
      induction i as [|i IH]; intros Hi.
      - rewrite Nat.add_0_r. destruct (R n1 ltac:(lia)) as (R1 & _). split; auto. intros Hi'. pose proof (S1 0 Hi'). rewrite Nat.add_0_r in H0. auto.
      - destruct (IH ltac:(lia)) as (I1 & I2). specialize (I2 ltac:(lia)).
        assert (E : latest sel tss (n1 + S i) 0 = e * (p * (n1 / p))). { rewrite Nat.add_succ_r. rewrite (latest_S sel tss (n1 + i) 0 _ _ L I2 (T2 i ltac:(lia))). auto. }
        split; auto. }
    intros j J1 J2. rewrite spread_nth. 
    - destruct (I (j - n1) ltac:(lia)) as (_ & I2). replace (n1 + (j - n1)) with j in I2 by lia. rewrite I2 by lia. reflexivity.
    - rewrite <- (select_length sel tss L). apply (calls_length _ _ _ _ _ _ Cc).
  Qed.
End S.
