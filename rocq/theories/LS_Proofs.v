(** Proofs about acting and the error of Bellman's equation. *)
From Coq Require Import String List Arith ZArith Reals Lra Lia Permutation.
From Verif Require Import PD_Model PD_Spec PD_Proofs LS_Model LS_Spec.
Import ListNotations.
Open Scope R_scope.

Lemma argmax_first : forall l i, argmax rlt l = Some i <-> first_best l i.
Proof.
  intros l i. change (argmax rlt l) with (cat_mode l). rewrite cat_mode_iff. unfold first_best.
  unfold first_max. split.
  - intros H. repeat split; try apply H; try (intros; apply rlt_yes; apply H; assumption).
  - intros (A & B & C). repeat split; auto; try (intros; apply rlt_yes; auto).
Qed.

Lemma argmax_exists : forall l, l <> [] -> exists i, argmax rlt l = Some i.
Proof. intros [|x t] H; [congruence|]. cbn. eauto. Qed.

Lemma all_some_map : forall {A B} (f : A -> option B) l, (forall x, In x l -> exists b, f x = Some b) ->
  exists r, all_some (map f l) = Some r /\ List.length r = List.length l /\ forall k x, nth_error l k = Some x -> exists b, nth_error r k = Some b /\ f x = Some b.
Proof.
  intros A B f l. induction l as [|x t IH]; intros H.
  - exists []. split; [reflexivity|]. split; [reflexivity|]. intros [|k] y E; discriminate E.
  - destruct (H x (or_introl eq_refl)) as [b Eb]. destruct IH as [r (R1 & R2 & R3)]; [intros y Hy; apply H; right; exact Hy|].
    exists (b :: r). cbn. rewrite Eb, R1. split; [reflexivity|]. split; [rewrite R2; reflexivity|].
    intros [|k] y E; cbn in E |- *; [inversion E; subst; eauto|apply R3; exact E].
Qed.
Lemma nth_error_combine : forall {A B} (l : list A) (m : list B) k a b, nth_error l k = Some a -> nth_error m k = Some b -> nth_error (combine l m) k = Some (a, b).
Proof.
  intros A B l. induction l as [|x t IH]; intros [|y m] [|k] a b H1 H2; cbn in *; try discriminate; [congruence|apply IH; assumption].
Qed.

Section ActProofs.
  Context {Obs : Type} (q : Obs -> list R).
  Lemma act_rows : forall eps obs st upd after draws, (forall o, In o obs -> q o <> []) -> List.length draws = List.length obs ->
    exists acts, fst (act q eps obs st upd after draws) = Some acts /\ List.length acts = List.length obs /\
      forall k o u rnd, nth_error obs k = Some o -> nth_error draws k = Some (u, rnd) ->
        exists a, nth_error acts k = Some a /\ act_row q (if after then next_eps eps upd else eps) st o u rnd = Some a.
  Proof.
    intros eps obs st upd after draws Q L. unfold act. cbn [fst].
    destruct (all_some_map (fun od => act_row q (if after then next_eps eps upd else eps) st (fst od) (fst (snd od)) (snd (snd od))) (combine obs draws)) as [r (R1 & R2 & R3)].
    - intros [o [u rnd]] Ho. apply in_combine_l in Ho. cbn. unfold act_row. destruct (argmax_exists (q o) (Q o Ho)) as [i E]. rewrite E. eauto.
    - exists r. split; [exact R1|]. split; [rewrite R2, combine_length, L; lia|].
      intros k o u rnd H1 H2. exact (R3 k (o, (u, rnd)) (nth_error_combine obs draws k o (u, rnd) H1 H2)).
  Qed.
  Lemma act_greedy : forall eps obs upd after draws, (forall o, In o obs -> q o <> []) -> List.length draws = List.length obs ->
    exists acts, fst (act q eps obs false upd after draws) = Some acts /\ List.length acts = List.length obs /\
      forall k o, nth_error obs k = Some o -> exists a, nth_error acts k = Some a /\ first_best (q o) a.
  Proof.
    intros eps obs upd after draws Q L. destruct (act_rows eps obs false upd after draws Q L) as [acts (A1 & A2 & A3)].
    exists acts. split; [exact A1|]. split; [exact A2|]. intros k o Hk.
    destruct (nth_error draws k) as [[u rnd]|] eqn:E.
    - destruct (A3 k o u rnd Hk E) as [a [B1 B2]]. exists a. split; [exact B1|]. unfold act_row in B2.
      destruct (argmax rlt (q o)) as [d|] eqn:D; [|discriminate B2]. inversion B2; subst. apply argmax_first. exact D.
    - apply nth_error_None in E. assert (nth_error obs k <> None) by congruence. apply nth_error_Some in H. lia.
  Qed.
  Lemma act_explore : forall eps obs upd after draws, (forall o, In o obs -> q o <> []) -> List.length draws = List.length obs ->
    exists acts e, fst (act q eps obs true upd after draws) = Some acts /\ List.length acts = List.length obs /\
      (e = eps \/ e = snd (act q eps obs true upd after draws)) /\
      forall k o u rnd, nth_error obs k = Some o -> nth_error draws k = Some (u, rnd) ->
        exists a, nth_error acts k = Some a /\ (u < e -> a = rnd) /\ (e <= u -> first_best (q o) a).
  Proof.
    intros eps obs upd after draws Q L. destruct (act_rows eps obs true upd after draws Q L) as [acts (A1 & A2 & A3)].
    exists acts, (if after then next_eps eps upd else eps). split; [exact A1|]. split; [exact A2|]. split; [destruct after; [right|left]; reflexivity|].
    intros k o u rnd H1 H2. destruct (A3 k o u rnd H1 H2) as [a [B1 B2]]. exists a. split; [exact B1|]. unfold act_row in B2.
    destruct (argmax rlt (q o)) as [d|] eqn:D; [|discriminate B2]. destruct (Rlt_dec u _) as [U|U]; inversion B2; subst; split; intros X; try reflexivity; try lra.
    apply argmax_first. exact D.
  Qed.
  Lemma act_eps : forall eps obs st upd after draws, (0 <= upd -> snd (act q eps obs st upd after draws) = upd) /\ (upd < 0 -> snd (act q eps obs st upd after draws) = eps).
  Proof. intros. unfold act, next_eps. cbn [snd]. destruct (Rle_dec 0 upd); split; intros; try lra; reflexivity. Qed.
End ActProofs.

Lemma eps_after_snoc : forall l x, eps_after (l ++ [x]) = next_eps (eps_after l) x.
Proof. intros. unfold eps_after. rewrite fold_left_app. reflexivity. Qed.
Lemma eps_history : forall l, last_given l (eps_after l).
Proof.
  intros l. induction l as [|x l IH] using rev_ind; [left; split; [reflexivity|constructor]|].
  rewrite eps_after_snoc. unfold next_eps. destruct (Rle_dec 0 x) as [H|H].
  - right. exists l, []. split; [reflexivity|]. split; [exact H|constructor].
  - destruct IH as [[E F]|(b & a & E & P & F)].
    + left. split; [exact E|]. apply Forall_app. split; [exact F|]. constructor; [lra|constructor].
    + right. exists b, (a ++ [x]). split; [rewrite E at 1; rewrite <- app_assoc; reflexivity|]. split; [exact P|]. apply Forall_app. split; [exact F|]. constructor; [lra|constructor].
Qed.

(** ** Bellman *)
Lemma select_from : forall l s a, rsum (map (fun vh => fst vh * snd vh) (combine l (map (fun i => if (a =? Z.of_nat i)%Z then 1 else 0) (seq s (List.length l)))))
  = if ((Z.of_nat s <=? a) && (a <? Z.of_nat (s + List.length l)))%Z%bool then nth (Z.to_nat a - s) l 0 else 0.
Proof.
  induction l as [|x t IH]; intros s a.
  - cbn. destruct (Z.leb_spec (Z.of_nat s) a); destruct (Z.ltb_spec a (Z.of_nat (s + 0))); cbn; try reflexivity; destruct (Z.to_nat a - s)%nat; reflexivity.
  - cbn [List.length seq map combine fst snd rsum fold_right]. fold (rsum (map (fun vh => fst vh * snd vh) (combine t (map (fun i => if (a =? Z.of_nat i)%Z then 1 else 0) (seq (S s) (List.length t)))))).
    rewrite IH. destruct (Z.eqb_spec a (Z.of_nat s)) as [E|E].
    + subst a. replace (Z.of_nat (S s) <=? Z.of_nat s)%Z with false by (symmetry; apply Z.leb_gt; lia). cbn [andb].
      replace (Z.of_nat s <=? Z.of_nat s)%Z with true by (symmetry; apply Z.leb_le; lia).
      replace (Z.of_nat s <? Z.of_nat (s + S (List.length t)))%Z with true by (symmetry; apply Z.ltb_lt; lia). cbn [andb].
      replace (Z.to_nat (Z.of_nat s) - s)%nat with 0%nat by lia. cbn. ring.
    + destruct (Z.leb_spec (Z.of_nat (S s)) a) as [H|H].
      * replace (Z.of_nat s <=? a)%Z with true by (symmetry; apply Z.leb_le; lia). replace (S s + List.length t)%nat with (s + S (List.length t))%nat by lia.
        cbn [andb]. destruct (a <? _)%Z; [|ring]. replace (Z.to_nat a - s)%nat with (S (Z.to_nat a - S s)) by lia. cbn [nth]. ring.
      * replace (Z.of_nat s <=? a)%Z with false by (symmetry; apply Z.leb_gt; lia). cbn [andb]. ring.
Qed.
Lemma select_in : forall l a, (a < List.length l)%nat -> select (List.length l) l (Z.of_nat a) = nth a l 0.
Proof.
  intros l a H. unfold select, one_hot. rewrite select_from.
  replace (Z.of_nat 0 <=? Z.of_nat a)%Z with true by (symmetry; apply Z.leb_le; lia).
  replace (Z.of_nat a <? Z.of_nat (0 + List.length l))%Z with true by (symmetry; apply Z.ltb_lt; lia). cbn [andb]. f_equal. lia.
Qed.
Lemma select_out : forall l a, ~ (0 <= a < Z.of_nat (List.length l))%Z -> select (List.length l) l a = 0.
Proof.
  intros l a H. unfold select, one_hot. rewrite select_from.
  destruct (Z.leb_spec (Z.of_nat 0) a); destruct (Z.ltb_spec a (Z.of_nat (0 + List.length l))); cbn [andb]; try reflexivity. lia.
Qed.
Lemma rmax_largest : forall l, l <> [] -> largest l (rmax l).
Proof.
  intros [|x t] H; [congruence|]. clear H. cbn [rmax]. induction t as [|y t IH].
  - split; [left; reflexivity|]. intros z [E|[]]. subst. apply Rle_refl.
  - cbn [fold_right]. destruct IH as [I1 I2]. remember (fold_right Rmax x t) as M eqn:EM. destruct (Rle_dec y M) as [L|L]; [rewrite Rmax_right by exact L|rewrite Rmax_left by lra]; split.
    + destruct I1 as [I1|I1]; [left; exact I1|right; right; exact I1].
    + intros z [E|[E|E]]; [apply I2; left; exact E|subst z; exact L|apply I2; right; exact E].
    + right; left; reflexivity.
    + intros z [E|[E|E]]; [pose proof (I2 z (or_introl E)); lra|subst z; apply Rle_refl|pose proof (I2 z (or_intror E)); lra].
Qed.
Lemma largest_unique : forall l u v, largest l u -> largest l v -> u = v.
Proof. intros l u v [A B] [C D]. apply Rle_antisym; auto. Qed.
Lemma largest_nth : forall l v, largest l v -> exists i, (i < List.length l)%nat /\ nth i l 0 = v.
Proof. intros l v [A _]. destruct (In_nth l v 0 A) as [i [H E]]. eauto. Qed.

Section BellmanProofs.
  Context {Obs : Type} (n : nat).
  Lemma plain_best : forall q target o, List.length (target o) = n -> (0 < n)%nat -> exists M, q_best (Obs := Obs) n q target false o = Some M /\ largest (target o) M.
  Proof.
    intros q target o L P. unfold q_best. destruct (target o) as [|x t] eqn:E; [cbn in L; lia|]. exists (rmax (x :: t)). split; [reflexivity|]. apply rmax_largest. discriminate.
  Qed.
  Lemma double_best : forall q target o, List.length (q o) = n -> List.length (target o) = n -> (0 < n)%nat ->
    exists i, first_best (q o) i /\ q_best (Obs := Obs) n q target true o = Some (nth i (target o) 0).
  Proof.
    intros q target o L T P. unfold q_best. destruct (argmax_exists (q o)) as [i E]; [intros C; rewrite C in L; cbn in L; lia|].
    rewrite E. exists i. apply argmax_first in E. split; [exact E|]. f_equal. rewrite <- T. apply select_in. destruct E as [E _]. rewrite T, <- L. exact E.
  Qed.
  Notation sized := (@sized Obs n).

  Lemma td_plain : forall q target gamma x a, (0 < n)%nat -> sized q -> sized target -> r_act x = Z.of_nat a -> (a < n)%nat ->
    exists M, largest (target (r_next x)) M /\ td_error n q target gamma false x = Some (nth a (q (r_obs x)) 0 - (r_rew x + gamma * (1 - r_done x) * M)).
  Proof.
    intros q target gamma x a P Q T A L. destruct (plain_best q target (r_next x) (T _) P) as [M [E B]]. exists M. split; [exact B|].
    unfold td_error, bellman. rewrite E. f_equal. rewrite A. rewrite <- (Q (r_obs x)) at 1. rewrite select_in by (rewrite (Q (r_obs x)); exact L). ring.
  Qed.
  Lemma td_double : forall q target gamma x a, (0 < n)%nat -> sized q -> sized target -> r_act x = Z.of_nat a -> (a < n)%nat ->
    exists i, first_best (q (r_next x)) i /\ td_error n q target gamma true x = Some (nth a (q (r_obs x)) 0 - (r_rew x + gamma * (1 - r_done x) * nth i (target (r_next x)) 0)).
  Proof.
    intros q target gamma x a P Q T A L. destruct (double_best q target (r_next x) (Q _) (T _) P) as [i [B E]]. exists i. split; [exact B|].
    unfold td_error, bellman. rewrite E. f_equal. rewrite A. rewrite <- (Q (r_obs x)) at 1. rewrite select_in by (rewrite (Q (r_obs x)); exact L). ring.
  Qed.
  Lemma q_best_some : forall q target dq o, (0 < n)%nat -> sized q -> sized target -> exists i, (i < n)%nat /\ q_best n q target dq o = Some (nth i (target o) 0) /\ (dq = true -> first_best (q o) i) /\ (dq = false -> largest (target o) (nth i (target o) 0)).
  Proof.
    intros q target [|] o P Q T.
    - destruct (double_best q target o (Q o) (T o) P) as [i [B E]]. exists i. split; [rewrite <- (Q o); apply B|]. split; [exact E|]. split; [auto|discriminate].
    - destruct (plain_best q target o (T o) P) as [M [E B]]. destruct (largest_nth _ _ B) as [i [H V]]. exists i. rewrite V. split; [rewrite <- (T o); exact H|]. split; [exact E|]. split; [discriminate|auto].
  Qed.
  Lemma td_terminal : forall q target gamma dq x a, (0 < n)%nat -> sized q -> sized target -> r_act x = Z.of_nat a -> (a < n)%nat -> r_done x = 1 ->
    td_error n q target gamma dq x = Some (nth a (q (r_obs x)) 0 - r_rew x).
  Proof.
    intros q target gamma [|] x a P Q T A L D.
    - destruct (td_double q target gamma x a P Q T A L) as [i [_ E]]. rewrite E, D. f_equal. ring.
    - destruct (td_plain q target gamma x a P Q T A L) as [i [_ E]]. rewrite E, D. f_equal. ring.
  Qed.
  Lemma td_outside : forall q target gamma dq x, (0 < n)%nat -> sized q -> sized target -> ~ (0 <= r_act x < Z.of_nat n)%Z ->
    exists t, bellman n q target gamma dq x = Some t /\ td_error n q target gamma dq x = Some (0 - t).
  Proof.
    intros q target gamma dq x P Q T A. destruct (q_best_some q target dq (r_next x) P Q T) as [i (_ & E & _)].
    unfold td_error. assert (B : exists t, bellman n q target gamma dq x = Some t) by (unfold bellman; rewrite E; eauto).
    destruct B as [t B]. exists t. rewrite B. split; [reflexivity|]. f_equal. f_equal. rewrite <- (Q (r_obs x)). apply select_out. rewrite (Q (r_obs x)). exact A.
  Qed.
  Lemma double_below : forall q target gamma x, (0 < n)%nat -> sized q -> sized target -> 0 <= gamma -> 0 <= r_done x <= 1 ->
    exists d p, bellman n q target gamma true x = Some d /\ bellman n q target gamma false x = Some p /\ d <= p /\ (q (r_next x) = target (r_next x) -> d = p).
  Proof.
    intros q target gamma x P Q T G D. destruct (double_best q target (r_next x) (Q _) (T _) P) as [i [B E]]. destruct (plain_best q target (r_next x) (T _) P) as [M [F [M1 M2]]].
    unfold bellman. rewrite E, F. exists (r_rew x + gamma * ((1 - r_done x) * nth i (target (r_next x)) 0)), (r_rew x + gamma * ((1 - r_done x) * M)).
    split; [reflexivity|]. split; [reflexivity|]. split.
    - apply Rplus_le_compat_l. apply Rmult_le_compat_l; [exact G|]. apply Rmult_le_compat_l; [lra|]. apply M2. apply nth_In. rewrite T, <- (Q (r_next x)). apply B.
    - intros S0. do 3 f_equal. rewrite <- S0 in *. eapply largest_unique; [|split; eassumption]. split; [apply nth_In; apply B|].
      intros y Hy. destruct (In_nth _ _ 0 Hy) as [j [Hj Ej]]. rewrite <- Ej. apply B. exact Hj.
  Qed.

  Lemma max_close : forall l m u v D, List.length l = List.length m -> largest l u -> largest m v -> (forall i, (i < List.length l)%nat -> Rabs (nth i l 0 - nth i m 0) <= D) -> Rabs (u - v) <= D.
  Proof.
    intros l m u v D L A B C. destruct (largest_nth _ _ A) as [i [Hi Ei]]. destruct (largest_nth _ _ B) as [j [Hj Ej]].
    pose proof (C i Hi) as Ci. pose proof (C j) as Cj. rewrite <- L in Hj. specialize (Cj Hj).
    assert (X : nth j l 0 <= u) by (apply A; apply nth_In; exact Hj). assert (Y : nth i m 0 <= v) by (apply B; apply nth_In; rewrite <- L; exact Hi).
    rewrite Ei in Ci. rewrite Ej in Cj. unfold Rabs in *. repeat destruct (Rcase_abs _); lra.
  Qed.
  Lemma contraction : forall q t1 t2 gamma dq x D, (0 < n)%nat -> sized q -> sized t1 -> sized t2 -> 0 <= gamma -> 0 <= r_done x <= 1 ->
    (forall i, (i < n)%nat -> Rabs (nth i (t1 (r_next x)) 0 - nth i (t2 (r_next x)) 0) <= D) ->
    exists a b, bellman n q t1 gamma dq x = Some a /\ bellman n q t2 gamma dq x = Some b /\ Rabs (a - b) <= gamma * D.
  Proof.
    intros q t1 t2 gamma dq x D P Q T1 T2 G Dn C.
    assert (K : exists u v, q_best n q t1 dq (r_next x) = Some u /\ q_best n q t2 dq (r_next x) = Some v /\ Rabs (u - v) <= D).
    { destruct dq.
      - destruct (double_best q t1 (r_next x) (Q _) (T1 _) P) as [i [B E]]. destruct (double_best q t2 (r_next x) (Q _) (T2 _) P) as [j [B' E']].
        apply argmax_first in B. apply argmax_first in B'. rewrite B in B'. inversion B'; subst j. exists (nth i (t1 (r_next x)) 0), (nth i (t2 (r_next x)) 0).
        split; [exact E|]. split; [exact E'|]. apply C. apply argmax_first in B. destruct B as [B _]. rewrite (Q (r_next x)) in B. exact B.
      - destruct (plain_best q t1 (r_next x) (T1 _) P) as [u [E A]]. destruct (plain_best q t2 (r_next x) (T2 _) P) as [v [E' A']].
        exists u, v. split; [exact E|]. split; [exact E'|]. eapply (max_close (t1 (r_next x)) (t2 (r_next x))); try eassumption; [rewrite T1, T2; reflexivity|]. rewrite T1. exact C. }
    destruct K as (u & v & E & E' & K). unfold bellman. rewrite E, E'.
    exists (r_rew x + gamma * ((1 - r_done x) * u)), (r_rew x + gamma * ((1 - r_done x) * v)). split; [reflexivity|]. split; [reflexivity|].
    replace (r_rew x + gamma * ((1 - r_done x) * u) - (r_rew x + gamma * ((1 - r_done x) * v))) with (gamma * ((1 - r_done x) * (u - v))) by ring.
    rewrite Rabs_mult, (Rabs_pos_eq gamma G). apply Rmult_le_compat_l; [exact G|]. rewrite Rabs_mult, (Rabs_pos_eq (1 - r_done x)) by lra.
    pose proof (Rabs_pos (u - v)). rewrite <- (Rmult_1_l D). apply Rmult_le_compat; lra.
  Qed.
  Lemma bounded : forall q target gamma dq x r, (0 < n)%nat -> sized q -> sized target -> 0 <= gamma < 1 -> 0 <= r_done x <= 1 -> Rabs (r_rew x) <= r ->
    (forall i, (i < n)%nat -> Rabs (nth i (target (r_next x)) 0) <= r / (1 - gamma)) ->
    exists t, bellman n q target gamma dq x = Some t /\ Rabs t <= r / (1 - gamma).
  Proof.
    intros q target gamma dq x r P Q T G D Hr B. destruct (q_best_some q target dq (r_next x) P Q T) as [i (Hi & E & _)].
    unfold bellman. rewrite E. eexists. split; [reflexivity|]. eapply Rle_trans; [apply Rabs_triang|].
    assert (X : Rabs (gamma * ((1 - r_done x) * nth i (target (r_next x)) 0)) <= gamma * (r / (1 - gamma))).
    { rewrite Rabs_mult, (Rabs_pos_eq gamma) by lra. apply Rmult_le_compat_l; [lra|]. rewrite Rabs_mult, (Rabs_pos_eq (1 - r_done x)) by lra.
      pose proof (B i Hi) as Bi. pose proof (Rabs_pos (nth i (target (r_next x)) 0)). rewrite <- (Rmult_1_l (r / (1 - gamma))). apply Rmult_le_compat; lra. }
    assert (Y : r + gamma * (r / (1 - gamma)) = r / (1 - gamma)) by (field; lra). lra.
  Qed.

  (** Every state and action has one transition; both tables have no error on any of them. *)
  Lemma unique_table : forall (step : Obs -> nat -> row Obs) q1 q2 gamma dq D, (0 < n)%nat -> sized q1 -> sized q2 -> 0 <= gamma < 1 ->
    (forall o a, (a < n)%nat -> r_obs (step o a) = o /\ r_act (step o a) = Z.of_nat a /\ 0 <= r_done (step o a) <= 1) ->
    (forall o a, (a < n)%nat -> td_error n q1 q1 gamma dq (step o a) = Some 0 /\ td_error n q2 q2 gamma dq (step o a) = Some 0) ->
    (forall o a, (a < n)%nat -> Rabs (nth a (q1 o) 0 - nth a (q2 o) 0) <= D) ->
    forall o, q1 o = q2 o.
  Proof.
    intros step q1 q2 gamma dq D P Q1 Q2 G S0 Z0 B.
    assert (plain : forall q, sized q -> forall x t, td_error n q q gamma dq x = Some t -> td_error n q q gamma false x = Some t).
    { intros q Q x t E. destruct dq; [|exact E]. unfold td_error, bellman in *.
      destruct (double_best q q (r_next x) (Q _) (Q _) P) as [i [Bi Ei]]. destruct (plain_best q q (r_next x) (Q _) P) as [M [EM BM]]. rewrite Ei in E. rewrite EM.
      rewrite <- E. do 6 f_equal. eapply largest_unique; [exact BM|]. split; [apply nth_In; apply Bi|]. intros y Hy. destruct (In_nth _ _ 0 Hy) as [j [Hj Ej]]. rewrite <- Ej. apply Bi. exact Hj. }
    assert (K : forall k o a, (a < n)%nat -> Rabs (nth a (q1 o) 0 - nth a (q2 o) 0) <= gamma ^ k * D).
    { induction k as [|k IH]; intros o a Ha; [cbn; rewrite Rmult_1_l; apply B; exact Ha|].
      destruct (S0 o a Ha) as (S1 & S2 & S3). destruct (Z0 o a Ha) as [Z1 Z2]. apply (plain q1 Q1) in Z1. apply (plain q2 Q2) in Z2.
      destruct (contraction q1 q1 q2 gamma false (step o a) (gamma ^ k * D) P Q1 Q1 Q2 (proj1 G) S3) as (t1 & t2 & T1 & T2 & C); [intros i Hi; apply IH; exact Hi|].
      assert (T2' : bellman n q2 q2 gamma false (step o a) = Some t2) by exact T2.
      unfold td_error in Z1, Z2. rewrite T1 in Z1. rewrite T2' in Z2. rewrite S1, S2 in Z1, Z2.
      rewrite <- (Q1 o) in Z1 at 1. rewrite <- (Q2 o) in Z2 at 1. rewrite select_in in Z1 by (rewrite Q1; exact Ha). rewrite select_in in Z2 by (rewrite Q2; exact Ha).
      assert (E1 : nth a (q1 o) 0 - t1 = 0) by congruence. assert (E2 : nth a (q2 o) 0 - t2 = 0) by congruence.
      replace (nth a (q1 o) 0 - nth a (q2 o) 0) with (t1 - t2) by lra. cbn [pow]. lra. }
    intros o. apply (nth_ext _ _ 0 0); [rewrite Q1, Q2; reflexivity|]. intros a Ha. rewrite Q1 in Ha.
    destruct (Req_dec (nth a (q1 o) 0) (nth a (q2 o) 0)) as [E|E]; [exact E|]. exfalso.
    assert (A : 0 < Rabs (nth a (q1 o) 0 - nth a (q2 o) 0)) by (apply Rabs_pos_lt; lra).
    assert (D0 : 0 < D) by (pose proof (B o a Ha); lra).
    destruct (pow_lt_1_zero gamma) with (y := Rabs (nth a (q1 o) 0 - nth a (q2 o) 0) / D) as [N HN]; [rewrite Rabs_pos_eq; lra|apply Rdiv_lt_0_compat; assumption|].
    specialize (HN N (Nat.le_refl N)). rewrite Rabs_pos_eq in HN by (apply pow_le; lra). pose proof (K N o a Ha) as KN.
    assert (gamma ^ N * D < Rabs (nth a (q1 o) 0 - nth a (q2 o) 0)); [|lra].
    apply Rmult_lt_compat_r with (r := D) in HN; [|exact D0]. unfold Rdiv in HN. rewrite Rmult_assoc, Rinv_l, Rmult_1_r in HN by lra. exact HN.
  Qed.
End BellmanProofs.
