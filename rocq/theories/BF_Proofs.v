(** Proofs about the toy environments. *)
From Coq Require Import List Arith Lia ZArith QArith Bool.
From Verif Require Import BF_Model BF_Spec.
Import ListNotations.
Open Scope nat_scope.

Lemma flip_length : forall i l, length (flip_nth i l) = length l.
Proof. intros i l. revert i. induction l as [|b t IH]; intros [|i]; cbn; auto. Qed.
Lemma flip_spec : forall i l, flipped_at i l (flip_nth i l).
Proof.
  intros i l. split; [apply flip_length|]. revert i. induction l as [|b t IH]; intros [|i].
  - split; [cbn; lia|]. intros [|j]; reflexivity.
  - split; [cbn; lia|]. intros [|j]; reflexivity.
  - split; [reflexivity|]. intros [|j] N; [congruence|reflexivity].
  - destruct (IH i) as [A B]. split; [cbn; intros; apply A; lia|]. intros [|j] N; [reflexivity|]. cbn. apply B. lia.
Qed.
Lemma act_one : forall l z, (- Z.of_nat (length l) <= z < Z.of_nat (length l))%Z ->
  exists m, act l (One z) = Some m /\ flipped_at (Z.to_nat (if (z <? 0)%Z then z + Z.of_nat (length l) else z)) l m.
Proof.
  intros l z H. unfold act. destruct ((0 <=? z) && (z <? Z.of_nat (length l)))%Z eqn:B.
  - apply andb_prop in B. destruct B as [B1 B2]. apply Z.leb_le in B1. assert (E : (z <? 0)%Z = false) by (apply Z.ltb_ge; lia). rewrite E. eexists. split; [reflexivity|apply flip_spec].
  - assert (Z0 : (z < 0)%Z). { apply andb_false_iff in B. destruct B as [B|B]; [apply Z.leb_gt in B; lia|apply Z.ltb_ge in B; lia]. }
    assert (E : (z <? 0)%Z = true) by (apply Z.ltb_lt; lia). rewrite E. assert (E2 : ((- Z.of_nat (length l) <=? z) && true)%Z = true) by (rewrite andb_true_r; apply Z.leb_le; lia). rewrite E2. eexists. split; [reflexivity|apply flip_spec].
Qed.
Lemma act_outside : forall l z, act l (One z) = None <-> ~ (- Z.of_nat (length l) <= z < Z.of_nat (length l))%Z.
Proof.
  intros l z. split.
  - intros E H. destruct (act_one l z H) as [m [A _]]. congruence.
  - intros N. unfold act. destruct ((0 <=? z) && (z <? Z.of_nat (length l)))%Z eqn:B.
    + apply andb_prop in B. destruct B as [B1 B2]. apply Z.leb_le in B1. apply Z.ltb_lt in B2. exfalso. apply N. lia.
    + destruct ((- Z.of_nat (length l) <=? z) && (z <? 0))%Z eqn:C; [|reflexivity]. apply andb_prop in C. destruct C as [C1 C2]. apply Z.leb_le in C1. apply Z.ltb_lt in C2. exfalso. apply N. lia.
Qed.
Lemma positive_iff : forall q, positive q = true <-> (0 < q)%Q.
Proof.
  intros q. unfold positive. rewrite negb_true_iff. split.
  - intros E. apply Qnot_le_lt. intros L. apply Qle_bool_iff in L. congruence.
  - intros L. destruct (Qle_bool q 0) eqn:E; [|reflexivity]. apply Qle_bool_iff in E. exfalso. now apply (Qlt_not_le _ _ L).
Qed.
Lemma act_cont : forall l m, length m = length l -> exists r, act l (Cont m) = Some r /\ length r = length l /\
  forall j, j < length l -> nth j r false = if positive (nth j m 0%Q) then negb (nth j l false) else nth j l false.
Proof.
  intros l m L. unfold act. rewrite L, Nat.eqb_refl. eexists. split; [reflexivity|]. split; [rewrite map_length, combine_length; lia|].
  intros j J. rewrite (nth_indep _ false ((fun bq => if positive (snd bq) then negb (fst bq) else fst bq) (false, 0%Q))) by (rewrite map_length, combine_length; lia).
  rewrite (map_nth (fun bq : bool * Q => if positive (snd bq) then negb (fst bq) else fst bq)), combine_nth by congruence. reflexivity.
Qed.

(** ** Rewards *)
Lemma solved_goal : forall l, solved l <-> l = goal (length l).
Proof.
  intros l. unfold solved, goal. split.
  - induction l as [|b t IH]; intros H; [reflexivity|]. cbn. rewrite (H b) by now left. f_equal. apply IH. intros x I. apply H. now right.
  - intros E b I. rewrite E in I. now apply repeat_spec in I.
Qed.
Lemma encode_bounds : forall l, (0 <= encode l < 2 ^ Z.of_nat (length l))%Z.
Proof.
  induction l as [|b t IH]; [cbn; lia|]. cbn [encode length]. rewrite Nat2Z.inj_succ, Z.pow_succ_r by lia. destruct b; lia.
Qed.
Lemma encode_inj : forall l m, length l = length m -> encode l = encode m -> l = m.
Proof.
  induction l as [|b t IH]; intros [|b' t'] L E; try discriminate; [reflexivity|]. cbn [encode] in E. injection L as L. destruct b, b'; try lia; f_equal; apply IH; auto; lia.
Qed.
Lemma encode_goal : forall n, encode (goal n) = (2 ^ Z.of_nat n - 1)%Z.
Proof. induction n as [|n IH]; [reflexivity|]. unfold goal in *. cbn [repeat encode]. rewrite IH, Nat2Z.inj_succ, Z.pow_succ_r by lia. lia. Qed.
Lemma reward_spec : forall c l m, length l = length m -> compute_reward (convert c l) (convert c m) = (if list_eq_dec Bool.bool_dec l m then 0 else -1)%Z.
Proof.
  intros c l m L. unfold compute_reward, convert. destruct (b_number c); cbn [obs_eqb].
  - destruct (list_eq_dec Bool.bool_dec l m) as [->|N]; [now rewrite Z.eqb_refl|]. destruct (encode l =? encode m)%Z eqn:E; [|reflexivity]. apply Z.eqb_eq in E. exfalso. apply N. now apply encode_inj.
  - destruct (list_eq_dec Bool.bool_dec l m); reflexivity.
Qed.
Lemma reward_facts : forall c l m, length l = length m -> (compute_reward (convert c l) (convert c m) = 0%Z <-> l = m) /\ (compute_reward (convert c l) (convert c m) = (-1)%Z <-> l <> m).
Proof. intros c l m L. rewrite reward_spec by exact L. destruct (list_eq_dec Bool.bool_dec l m); split; split; intros; try congruence; try lia; try contradiction. Qed.
Lemma solved_dec : forall l, {solved l} + {~ solved l}.
Proof. intros l. destruct (list_eq_dec Bool.bool_dec l (goal (length l))) as [E|N]; [left|right]; rewrite solved_goal; assumption. Qed.
Lemma step_spec : forall c s a s' o r d ok, b_step c s a = Some (s', o, r, d, ok) ->
  act (bits s) a = Some (bits s') /\ count s' = S (count s) /\ o = (convert c (bits s'), convert c (bits s'), convert c (repeat true (length (bits s')))) /\
  (ok = true <-> solved (bits s')) /\ r = (if ok then 0 else -1)%Z /\ (d = true <-> ok = true \/ b_max c <= count s').
Proof.
  intros c s a s' o r d ok H. unfold b_step in H. destruct (act (bits s) a) as [l|] eqn:A; [|discriminate]. injection H as <- <- <- <- <-. cbn [bits count].
  cbn [get_obs fst snd]. rewrite reward_spec by (unfold goal; now rewrite repeat_length). split; [reflexivity|]. split; [reflexivity|]. split; [reflexivity|].
  destruct (list_eq_dec Bool.bool_dec l (goal (length l))) as [E|N].
  - rewrite <- solved_goal in E. cbn. repeat split; auto.
  - rewrite <- solved_goal in N. cbn [Z.eqb orb]. split; [split; [discriminate|tauto]|]. split; [reflexivity|]. rewrite Nat.leb_le. split; [auto|intros [?|?]; [discriminate|assumption]].
Qed.
Lemma step_acts : forall c s a l, act (bits s) a = Some l -> exists o r d ok, b_step c s a = Some (Bstate l (S (count s)), o, r, d, ok).
Proof. intros c s a l E. unfold b_step. rewrite E. do 4 eexists. reflexivity. Qed.

(** ** Episodes *)
Lemma zeros_solved : forall l, zeros l = 0 <-> solved l.
Proof.
  unfold zeros, solved. induction l as [|b t IH]; [cbn; split; [intros _ b []|reflexivity]|]. cbn [filter]. destruct b; cbn [negb length].
  - rewrite IH. split; [intros H b [<-|I]; auto|intros H b I; apply H; now right].
  - split; [discriminate|]. intros H. specialize (H false (or_introl eq_refl)). discriminate.
Qed.
Lemma zeros_le : forall l, zeros l <= length l.
Proof. unfold zeros. induction l as [|[|] t IH]; cbn; lia. Qed.
Lemma flip_zeros : forall i l, zeros l <= S (zeros (flip_nth i l)) /\ (i < length l -> nth i l true = false -> zeros l = S (zeros (flip_nth i l))).
Proof.
  unfold zeros. intros i l. revert i. induction l as [|b t IH]; intros i; [cbn; destruct i; split; cbn; try lia; discriminate|]. destruct i as [|i]; cbn [flip_nth filter nth].
  - destruct b; cbn [negb length]; split; try lia; try discriminate.
  - destruct (IH i) as [A B]. destruct b; cbn [negb length filter]; split; try lia; intros H N; [apply B; [lia|exact N]|rewrite B; [reflexivity|lia|exact N]].
Qed.
Lemma act_zeros : forall l z m, act l (One z) = Some m -> zeros l <= S (zeros m).
Proof.
  intros l z m H. unfold act in H. destruct ((0 <=? z) && (z <? Z.of_nat (length l)))%Z; [injection H as <-; apply flip_zeros|].
  destruct ((- Z.of_nat (length l) <=? z) && (z <? 0))%Z; [|discriminate]. injection H as <-. apply flip_zeros.
Qed.
(** No episode of single flips is shorter than the number of zeros. *)
Lemma play_least : forall c zs s n q d, play c s (map One zs) = Some (n, q, d, true) -> zeros (bits s) <= n.
Proof.
  intros c zs. induction zs as [|z t IH]; intros s n q d H; [discriminate|]. cbn [map play] in H. destruct (b_step c s (One z)) as [[[[[s' o] r] d'] ok]|] eqn:B; [|discriminate].
  destruct (step_spec _ _ _ _ _ _ _ _ B) as [A [_ [_ [K _]]]]. pose proof (act_zeros _ _ _ A) as Z. destruct d'.
  - injection H as <- _ _ ->. assert (S0 : zeros (bits s') = 0) by (apply zeros_solved, K; reflexivity). lia.
  - destruct (play c s' (map One t)) as [[[[n' q'] d''] ok']|] eqn:P; [|discriminate]. injection H as <- _ _ ->. specialize (IH _ _ _ _ P). lia.
Qed.
Lemma play_ends : forall c acts s n q d ok, play c s acts = Some (n, q, d, ok) -> n <= length acts /\ (d = false -> n = length acts) /\
  (1 <= b_max c -> count s < b_max c -> count s + n <= b_max c /\ (b_max c <= count s + length acts -> d = true)) /\ (ok = true -> d = true) /\ q = (if ok then 1 - Z.of_nat n else - Z.of_nat n)%Z.
Proof.
  intros c acts. induction acts as [|a t IH]; intros s n q d ok H.
  - injection H as <- <- <- <-. cbn. repeat split; auto; try lia; discriminate.
  - cbn [play] in H. destruct (b_step c s a) as [[[[[s' o] r] d'] ok1]|] eqn:B; [|discriminate].
    destruct (step_spec _ _ _ _ _ _ _ _ B) as [A [C [_ [K [R D]]]]]. destruct d'.
    + injection H as <- <- <- <-. cbn [length]. split; [lia|]. split; [discriminate|]. split; [intros; split; [lia|reflexivity]|]. split; [reflexivity|]. rewrite R. destruct ok1; reflexivity.
    + destruct (play c s' t) as [[[[n' q'] d''] ok']|] eqn:P; [|discriminate]. injection H as <- <- <- <-. destruct (IH _ _ _ _ _ P) as [H1 [H2 [H3 [H4 H5]]]].
      assert (O1 : ok1 = false) by (destruct ok1; [|reflexivity]; assert (false = true) by (apply D; auto); discriminate). subst ok1.
      assert (O2 : ~ b_max c <= count s') by (intros O; assert (false = true) by (apply D; auto); discriminate).
      cbn [length]. split; [lia|]. split; [intros E; rewrite (H2 E); reflexivity|]. split; [intros M1 M2; destruct H3; [lia|lia|]; split; [lia|]; intros; apply H0; lia|]. split; [exact H4|]. rewrite H5, R. destruct ok'; lia.
Qed.
(** The first zero. *)
Fixpoint first_zero (l : list bool) : nat := match l with [] => 0 | b :: t => if b then S (first_zero t) else 0 end.
Lemma first_zero_spec : forall l, 0 < zeros l -> first_zero l < length l /\ nth (first_zero l) l true = false.
Proof. unfold zeros. induction l as [|[|] t IH]; cbn; intros H; [lia| |split; [lia|reflexivity]]. destruct IH; [exact H|]. split; [lia|assumption]. Qed.
Lemma act_nat : forall l i, i < length l -> act l (One (Z.of_nat i)) = Some (flip_nth i l).
Proof. intros l i H. unfold act. assert (E : ((0 <=? Z.of_nat i) && (Z.of_nat i <? Z.of_nat (length l)))%Z = true) by (apply andb_true_intro; split; [apply Z.leb_le|apply Z.ltb_lt]; lia). rewrite E. now rewrite Nat2Z.id. Qed.
Lemma play_zeros : forall c z s, zeros (bits s) = S z -> count s + S z <= b_max c -> exists zs, length zs = S z /\ Forall (fun x => 0 <= x < Z.of_nat (length (bits s)))%Z zs /\ play c s (map One zs) = Some (S z, (- Z.of_nat z)%Z, true, true).
Proof.
  intros c z. induction z as [|z IH]; intros s H M.
  - destruct (first_zero_spec (bits s)) as [F1 F2]; [lia|]. destruct (step_acts c s (One (Z.of_nat (first_zero (bits s)))) _ (act_nat _ _ F1)) as [o [r [d [ok B]]]].
    destruct (step_spec _ _ _ _ _ _ _ _ B) as [_ [_ [_ [K [R D]]]]]. cbn [bits] in K. destruct (flip_zeros (first_zero (bits s)) (bits s)) as [_ G]. specialize (G F1 F2).
    assert (O : ok = true) by (apply K, zeros_solved; lia). subst ok. assert (d = true) by (apply D; auto). subst d r.
    exists [Z.of_nat (first_zero (bits s))]. split; [reflexivity|]. split; [repeat constructor; lia|]. cbn [map play]. rewrite B. reflexivity.
  - destruct (first_zero_spec (bits s)) as [F1 F2]; [lia|]. destruct (step_acts c s (One (Z.of_nat (first_zero (bits s)))) _ (act_nat _ _ F1)) as [o [r [d [ok B]]]].
    destruct (step_spec _ _ _ _ _ _ _ _ B) as [_ [_ [_ [K [R D]]]]]. cbn [bits count] in K, D. destruct (flip_zeros (first_zero (bits s)) (bits s)) as [_ G]. specialize (G F1 F2).
    assert (O : ok = false). { destruct ok; [|reflexivity]. assert (X : zeros (flip_nth (first_zero (bits s)) (bits s)) = 0) by (apply zeros_solved, K; reflexivity). lia. }
    subst ok. assert (d = false). { destruct d; [|reflexivity]. destruct (proj1 D eq_refl); [discriminate|lia]. } subst d r.
    destruct (IH (Bstate (flip_nth (first_zero (bits s)) (bits s)) (S (count s)))) as [zs [L [F P]]]; [cbn [bits]; lia|cbn [count]; lia|]. cbn [bits] in F. rewrite flip_length in F.
    exists (Z.of_nat (first_zero (bits s)) :: zs). split; [cbn; now rewrite L|]. split; [constructor; [lia|exact F]|]. cbn [map play]. rewrite B, P. replace (- Z.of_nat (S z))%Z with (-1 + - Z.of_nat z)%Z by lia. reflexivity.
Qed.
Lemma flip_flip : forall i l, flip_nth i (flip_nth i l) = l.
Proof. intros i l. revert i. induction l as [|b t IH]; intros [|i]; cbn; try reflexivity; [now rewrite negb_involutive|now rewrite IH]. Qed.
(** With two bits and the default number of steps every start can be solved, and from z zeros in z steps. *)
Lemma solvable : forall number l, 2 <= length l -> exists zs, Forall (fun x => 0 <= x < Z.of_nat (length l))%Z zs /\
  play (make (length l) None number) (fst (b_reset (make (length l) None number) l)) (map One zs) = Some (if zeros l =? 0 then 2 else zeros l, if zeros l =? 0 then (-1)%Z else (1 - Z.of_nat (zeros l))%Z, true, true).
Proof.
  intros number l N. cbn [b_reset fst]. set (c := make (length l) None number). destruct (zeros l) as [|z] eqn:E.
  - cbn [Nat.eqb]. exists [0%Z; 0%Z]. split; [repeat constructor; lia|]. cbn [map play].
    assert (S0 : solved l) by now apply zeros_solved.
    destruct (step_acts c (Bstate l 0) (One 0) (flip_nth 0 l)) as [o [r [d [ok B]]]]; [apply (act_nat l 0); lia|]. rewrite B. destruct (step_spec _ _ _ _ _ _ _ _ B) as [_ [_ [_ [K [R D]]]]]. cbn [bits count] in K, D.
    assert (ok = false). { destruct ok; [|reflexivity]. assert (X : solved (flip_nth 0 l)) by (apply K; reflexivity). destruct l as [|b t]; [cbn in N; lia|]. pose proof (S0 b (or_introl eq_refl)). subst b. cbn in X. specialize (X false (or_introl eq_refl)). discriminate. } subst ok.
    assert (d = false). { destruct d; [|reflexivity]. destruct (proj1 D eq_refl) as [|D1]; [discriminate|]. cbn in D1. lia. } subst d r.
    destruct (step_acts c (Bstate (flip_nth 0 l) 1) (One 0) (flip_nth 0 (flip_nth 0 l))) as [o2 [r2 [d2 [ok2 B2]]]]; [apply (act_nat (flip_nth 0 l) 0); rewrite flip_length; lia|]. cbn [count] in B2 |- *. rewrite B2. destruct (step_spec _ _ _ _ _ _ _ _ B2) as [_ [_ [_ [K2 [R2 D2]]]]]. cbn [bits count] in K2, D2.
    assert (ok2 = true) by (apply K2; rewrite flip_flip; exact S0). subst ok2. assert (d2 = true) by (apply D2; auto). subst d2 r2. reflexivity.
  - cbn [Nat.eqb]. destruct (play_zeros c z (Bstate l 0)) as [zs [L [F P]]]; [exact E|cbn; pose proof (zeros_le l); lia|]. exists zs. split; [exact F|]. rewrite P. replace (1 - Z.of_nat (S z))%Z with (- Z.of_nat z)%Z by lia. reflexivity.
Qed.
Lemma one_bit : forall number zs n q d ok, play (make 1 None number) (fst (b_reset (make 1 None number) [true])) (map One zs) = Some (n, q, d, ok) -> ok = false.
Proof.
  intros number zs n q d ok H. destruct zs as [|z t]; [injection H as _ _ _ <-; reflexivity|]. cbn [b_reset fst map play] in H.
  destruct (b_step (make 1 None number) (Bstate [true] 0) (One z)) as [[[[[s' o] r] d'] ok1]|] eqn:B; [|discriminate]. destruct (step_spec _ _ _ _ _ _ _ _ B) as [A [C [_ [K [_ D]]]]]. cbn [bits count make b_max] in *.
  assert (d' = true) by (apply D; right; lia). subst d'. injection H as _ _ _ <-.
  destruct ok1; [|reflexivity]. assert (X : solved (bits s')) by (apply K; reflexivity). exfalso.
  assert (bits s' = [false]). { unfold act in A. cbn [length Z.of_nat] in A. destruct ((0 <=? z) && (z <? Z.of_nat 1))%Z eqn:Q1.
    - apply andb_prop in Q1. destruct Q1 as [Q1 Q2]. apply Z.leb_le in Q1. apply Z.ltb_lt in Q2. assert (z = 0)%Z by lia. subst z. injection A as <-. reflexivity.
    - destruct ((- Z.of_nat 1 <=? z) && (z <? 0))%Z eqn:Q2; [|cbn in *; rewrite Q1 in A; rewrite Q2 in A; discriminate]. apply andb_prop in Q2. destruct Q2 as [Q2 Q3]. apply Z.leb_le in Q2. apply Z.ltb_lt in Q3. assert (z = -1)%Z by lia. subst z. injection A as <-. reflexivity. }
  rewrite H in X. specialize (X false (or_introl eq_refl)). discriminate.
Qed.
Definition want (b : bool) : Q := if b then (-1)%Q else 1%Q.
Lemma one_shot : forall c s, exists m, length m = length (bits s) /\ play c s [Cont m] = Some (1, 0%Z, true, true).
Proof.
  intros c s. set (m := map want (bits s)). assert (L : length m = length (bits s)) by apply map_length. exists m. split; [exact L|].
  destruct (act_cont (bits s) m L) as [r [A [L2 N]]]. destruct (step_acts c s (Cont m) r A) as [o [q [d [ok B]]]]. destruct (step_spec _ _ _ _ _ _ _ _ B) as [_ [_ [_ [K [R D]]]]]. cbn [bits] in K.
  assert (ok = true). { apply K. intros b I. apply (In_nth _ _ false) in I. destruct I as [j [J <-]]. rewrite N by lia. unfold m. rewrite (nth_indep _ 0%Q (want false)) by (rewrite map_length; lia). rewrite (map_nth want). unfold want. destruct (nth j (bits s) false) eqn:E; [reflexivity|]. reflexivity. }
  subst ok. assert (d = true) by (apply D; auto). subst d q. cbn [play]. rewrite B. reflexivity.
Qed.
Lemma outside_space : forall n l, length l = n -> (in_discrete n (encode l) = false <-> solved l).
Proof.
  intros n l L. rewrite solved_goal, L. unfold in_discrete. pose proof (encode_bounds l) as B. rewrite L in B. rewrite andb_false_iff, Z.leb_gt, Z.ltb_ge. split.
  - intros [H|H]; [lia|]. apply encode_inj; [unfold goal; rewrite repeat_length; exact L|]. rewrite encode_goal. lia.
  - intros ->. right. rewrite encode_goal. lia.
Qed.

(** ** IdentityEnv *)
Section Identity.
Context {X : Type}.
Variable matches : X -> X -> bool.
Lemma copy_return : forall ep draws first, (forall x, matches x x = true) -> 1 <= ep -> ep <= length draws ->
  i_play matches ep (fun seen => last seen first) [first] (i_init first) draws = repeat (1%Z, false) (ep - 1) ++ [(1%Z, true)].
Proof.
  intros ep draws first R E L.
  assert (G : forall draws seen s, i_step s < ep -> ep <= i_step s + length draws -> last seen first = i_state s -> i_play matches ep (fun seen => last seen first) seen s draws = repeat (1%Z, false) (ep - i_step s - 1) ++ [(1%Z, true)]).
  { clear draws L. induction draws as [|x t IH]; intros seen s H1 H2 H3; [cbn in H2; lia|]. cbn [i_play]. unfold i_take. rewrite H3, R.
    destruct (ep <=? S (i_step s)) eqn:Q.
    - apply Nat.leb_le in Q. replace (ep - i_step s - 1) with 0 by lia. reflexivity.
    - apply Nat.leb_gt in Q. rewrite IH; [|cbn; lia|cbn [length] in H2; cbn; lia|cbn; now rewrite last_last]. cbn [i_step]. replace (ep - i_step s - 1) with (S (ep - S (i_step s) - 1)) by lia. reflexivity. }
  rewrite G; [cbn [i_step i_init]; now rewrite Nat.sub_0_r|cbn; lia|cbn; lia|reflexivity].
Qed.
Lemma best_return : forall ep pol draws seen s, i_step s < ep -> (0 <= total (map fst (i_play matches ep pol seen s draws)) <= Z.of_nat (ep - i_step s))%Z /\ length (i_play matches ep pol seen s draws) = Nat.min (ep - i_step s) (length draws).
Proof.
  intros ep pol draws. induction draws as [|x t IH]; intros seen s H; [cbn; lia|]. cbn [i_play]. unfold i_take. destruct (ep <=? S (i_step s)) eqn:Q.
  - apply Nat.leb_le in Q. cbn. destruct (matches (i_state s) (pol seen)); split; lia.
  - apply Nat.leb_gt in Q. cbn [map fst length total fold_right]. destruct (IH (seen ++ [x]) (Istate x (S (i_step s)) (i_resets s)) Q) as [A B]. cbn [i_step] in A, B. rewrite B. unfold total in A. destruct (matches (i_state s) (pol seen)); split; lia.
Qed.
End Identity.
Lemma box_spec : forall eps s a, box_matches eps s a = true <-> (s - eps <= a <= s + eps)%Q.
Proof. intros. unfold box_matches. rewrite andb_true_iff, !Qle_bool_iff. reflexivity. Qed.
