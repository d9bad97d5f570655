(** The terms of F7 are sums of few dips. *)
From Coq Require Import List Arith Reals Lra Lia Psatz.
From Verif Require Import FF_Model FF_Spec FF_Proofs.
Import ListNotations.
Open Scope R_scope.

Lemma dip_is x c s : doubledip x c s = sum_dips x [(c, s)].
Proof.
  simpl. unfold doubledip. destruct (Rlt_dec (Rabs x) (1 / 2)) as [H|H].
  - apply Rabs_def2 in H as [H1 H2]. destruct (Rlt_dec (- (1 / 2)) x) as [A|A]; [|lra]. destruct (Rlt_dec x (1 / 2)) as [B|B]; [|lra]. ring.
  - destruct (Rlt_dec (- (1 / 2)) x) as [A|A]; [|lra]. destruct (Rlt_dec x (1 / 2)) as [B|B]; [|lra]. elim H. apply Rabs_def1; lra.
Qed.
Lemma sum_app x l l' : sum_dips x (l ++ l') = sum_dips x l + sum_dips x l'.
Proof. induction l as [|[c s] l IH]; cbn [sum_dips app]; [lra|rewrite IH; lra]. Qed.
Section P.
Variables (G : Type) (choice : G -> nat * G) (uniform : G -> R * G).
Hypothesis HD : numpy_draws choice uniform.
Definition proper (k : nat) (p : R * R) : Prop := 0 <= fst p < 1 /\ / (2 * 2 ^ (k - 1)) <= snd p <= / 2 ^ (k - 1).
Lemma dips_are x k m g : exists l, length l = m /\ Forall (proper k) l /\ fst (dips G uniform x k m g) = sum_dips x l.
Proof.
  revert g. induction m as [|m IH]; intros g; [exists []; repeat split; constructor|]. cbn [dips].
  pose proof (proj2 HD g) as C. pose proof (proj2 HD (snd (uniform g))) as U. destruct (uniform g) as [c g1]. cbn [fst snd] in C, U.
  destruct (uniform g1) as [u g2]. cbn [fst] in U. destruct (IH g2) as (l & L & F & E). destruct (dips G uniform x k m g2) as [r g3]. cbn [fst] in *.
  exists ((c, 1 / (2 ^ (k - 1) * (2 - u))) :: l). split; [simpl; now rewrite L|]. split.
  - constructor; [|exact F]. split; [exact C|]. cbn [snd]. assert (P : 0 < 2 ^ (k - 1)) by (apply pow_lt; lra). unfold Rdiv. rewrite Rmult_1_l. split.
    + apply Rinv_le_contravar; nra.
    + apply Rinv_le_contravar; nra.
  - rewrite dip_is, E. cbn [sum_dips]. lra.
Qed.
Lemma rounds_are x k n g : exists l, (length l <= 2 * n)%nat /\ Forall (proper k) l /\ fst (rounds G choice uniform x k n g) = sum_dips x l.
Proof.
  revert g. induction n as [|n IH]; intros g; [exists []; repeat split; [simpl; lia|constructor]|]. cbn [rounds].
  pose proof (proj1 HD g) as C. destruct (choice g) as [s g1]. cbn [fst] in C. destruct (dips_are x k s g1) as (l1 & L1 & F1 & E1). destruct (dips G uniform x k s g1) as [a g2].
  destruct (IH g2) as (l2 & L2 & F2 & E2). destruct (rounds G choice uniform x k n g2) as [r g3]. cbn [fst] in *.
  exists (l1 ++ l2). split; [rewrite app_length; lia|]. split; [apply Forall_app; now split|]. rewrite sum_app. lra.
Qed.
Theorem fractal_dips x g : exists large small, (length large <= 2)%nat /\ (length small <= 6)%nat /\ Forall (fun p => 0 <= fst p < 1 /\ 1 / 4 <= snd p <= 1 / 2) large /\
  Forall (fun p => 0 <= fst p < 1 /\ 1 / 8 <= snd p <= 1 / 4) small /\ fst (fractal1d G choice uniform x g) = sum_dips x (large ++ small).
Proof.
  unfold fractal1d. cbn [seq levels]. change (2 ^ (1 - 1) - 1)%nat with 0%nat. change (2 ^ (2 - 1) - 1)%nat with 1%nat. change (2 ^ (3 - 1) - 1)%nat with 3%nat.
  change (rounds G choice uniform x 1 0 g) with (0, g). cbv iota.
  destruct (rounds_are x 2 1 g) as (l2 & L2 & F2 & E2). destruct (rounds G choice uniform x 2 1 g) as [a2 g2].
  destruct (rounds_are x 3 3 g2) as (l3 & L3 & F3 & E3). destruct (rounds G choice uniform x 3 3 g2) as [a3 g3]. cbn [fst] in *.
  exists l2, l3. split; [exact L2|]. split; [exact L3|]. split; [|split].
  - eapply Forall_impl; [|exact F2]. intros [c s]. unfold proper. cbn. lra.
  - eapply Forall_impl; [|exact F3]. intros [c s]. unfold proper. cbn. lra.
  - rewrite sum_app. lra.
Qed.
Theorem along_terms a b r g : fst (along G choice uniform (a :: b :: r) g) = fst (fractal1d G choice uniform (a + twist b) g) + fst (along G choice uniform (b :: r) (snd (fractal1d G choice uniform (a + twist b) g))).
Proof.
  change (along G choice uniform (a :: b :: r) g) with (let (v, g1) := fractal1d G choice uniform (a + twist b) g in let (rest, g2) := along G choice uniform (b :: r) g1 in (v + rest, g2)).
  destruct (fractal1d G choice uniform (a + twist b) g) as [v g1]. cbn [fst snd]. destruct (along G choice uniform (b :: r) g1). reflexivity.
Qed.
End P.
(** The places at which the dips are summed. *)
Lemma along_dips G choice uniform (HD : numpy_draws choice uniform) l (g : G) : exists ds, length ds = pred (length l) /\ Forall (fun d => (length d <= 8)%nat /\ Forall (fun p => 0 <= fst p < 1 /\ 1 / 8 <= snd p <= 1 / 2) d) ds /\
  fst (along G choice uniform l g) = fold_right Rplus 0 (map (fun q => sum_dips (fst (fst q) + 4 * (snd (fst q) * (snd (fst q) - 1)) ^ 2) (snd q)) (combine (combine l (tl l)) ds)).
Proof.
  revert g. induction l as [|a [|b r] IH]; intros g; [exists []; repeat split; constructor|exists []; repeat split; constructor|].
  rewrite along_terms. destruct (fractal_dips G choice uniform HD (a + twist b) g) as (la & sm & L1 & L2 & F1 & F2 & E).
  destruct (IH (snd (fractal1d G choice uniform (a + twist b) g))) as (ds & L & F & E'). exists ((la ++ sm) :: ds). split; [simpl in *; lia|]. split.
  - constructor; [|exact F]. split; [rewrite app_length; lia|]. apply Forall_app. split; [eapply Forall_impl; [|exact F1]|eapply Forall_impl; [|exact F2]]; intros p; cbv beta; lra.
  - rewrite E', E, twist_eq. reflexivity.
Qed.
Theorem fit_dips G seed choice uniform : numpy_draws choice uniform -> forall a l (g : G), (length (a :: l) <= 1000)%nat ->
  exists ds, length ds = length l /\ Forall (fun d => (length d <= 8)%nat /\ Forall (fun p => 0 <= fst p < 1 /\ 1 / 8 <= snd p <= 1 / 2) d) ds /\
  fst (fit G seed choice uniform (a :: l) g) = Some (last (a :: l) 0 + 4 * (a * (a - 1)) ^ 2 +
    fold_right Rplus 0 (map (fun q => sum_dips (fst (fst q) + 4 * (snd (fst q) * (snd (fst q) - 1)) ^ 2) (snd q)) (combine (combine (a :: l) l) ds))).
Proof.
  intros HD a l g L. destruct (along_dips G choice uniform HD (a :: l) (seed 0%nat)) as (ds & L1 & F & E). exists ds. split; [exact L1|]. split; [exact F|].
  unfold fit. apply Nat.ltb_ge in L. rewrite L. destruct (along G choice uniform (a :: l) (seed 0%nat)) as [v g1]. cbn [fst tl] in *. rewrite E, twist_eq. reflexivity.
Qed.
