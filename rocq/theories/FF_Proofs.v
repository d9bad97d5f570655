(** Proofs about F7. *)
From Coq Require Import List Arith Reals Lra Lia Psatz.
From Verif Require Import FF_Model FF_Spec.
Import ListNotations.
Open Scope R_scope.

Lemma twist_eq y : twist y = 4 * (y * (y - 1)) ^ 2.
Proof. unfold twist. ring. Qed.
Lemma twist_nonneg y : 0 <= twist y.
Proof. rewrite twist_eq. assert (0 <= (y * (y - 1)) ^ 2) by apply pow2_ge_0. lra. Qed.
Lemma dip_poly d : - 6144 * d ^ 6 + 3088 * d ^ 4 - 392 * d ^ 2 + 1 <= 1.
Proof.
  assert (H : 0 <= 6144 * (d ^ 2) ^ 2 - 3088 * d ^ 2 + 392).
  { set (u := d ^ 2). replace (6144 * u ^ 2 - 3088 * u + 392) with (6144 * (u - 1544 / 6144) ^ 2 + (392 - 1544 * 1544 / 6144)) by field.
    assert (0 <= (u - 1544 / 6144) ^ 2) by apply pow2_ge_0. lra. }
  assert (0 <= d ^ 2) by apply pow2_ge_0.
  replace (- 6144 * d ^ 6 + 3088 * d ^ 4 - 392 * d ^ 2 + 1) with (1 - d ^ 2 * (6144 * (d ^ 2) ^ 2 - 3088 * d ^ 2 + 392)) by ring.
  assert (0 <= d ^ 2 * (6144 * (d ^ 2) ^ 2 - 3088 * d ^ 2 + 392)) by (apply Rmult_le_pos; assumption). lra.
Qed.
Lemma dip_upper x c s : 0 <= s -> doubledip x c s <= s.
Proof. intros Hs. unfold doubledip. destruct (Rlt_dec _ _); [|lra]. destruct (Rlt_dec _ _); [|lra]. pose proof (dip_poly (x - c)). nra. Qed.
Lemma dip_outside x c s : 1 / 2 <= Rabs x -> doubledip x c s = 0.
Proof. intros H. unfold doubledip. destruct (Rlt_dec _ _); [|reflexivity]. destruct (Rlt_dec _ _); [|reflexivity]. exfalso. revert H. unfold Rabs. destruct (Rcase_abs x); lra. Qed.

Section P.
Variables (G : Type) (seed : nat -> G) (choice : G -> nat * G) (uniform : G -> R * G).
Notation dips := (dips G uniform). Notation rounds := (rounds G choice uniform). Notation levels := (levels G choice uniform).
Notation fractal1d := (fractal1d G choice uniform). Notation along := (along G choice uniform). Notation fit := (fit G seed choice uniform).

Lemma dips_outside x k m g : 1 / 2 <= Rabs x -> fst (dips x k m g) = 0.
Proof.
  intros H. revert g. induction m as [|m IH]; intros g; simpl; [reflexivity|]. destruct (uniform g) as [c g1], (uniform g1) as [u g2]. specialize (IH g2).
  destruct (dips x k m g2) as [r g3]. simpl in *. rewrite dip_outside by exact H. lra.
Qed.
Lemma rounds_outside x k n g : 1 / 2 <= Rabs x -> fst (rounds x k n g) = 0.
Proof.
  intros H. revert g. induction n as [|n IH]; intros g; simpl; [reflexivity|]. destruct (choice g) as [s g1]. pose proof (dips_outside x k s g1 H) as D.
  destruct (dips x k s g1) as [a g2]. specialize (IH g2). destruct (rounds x k n g2) as [r g3]. simpl in *. lra.
Qed.
Lemma levels_outside x ks g : 1 / 2 <= Rabs x -> fst (levels x ks g) = 0.
Proof.
  intros H. revert g. induction ks as [|k ks IH]; intros g; cbn [FF_Model.levels]; [reflexivity|]. pose proof (rounds_outside x k (2 ^ (k - 1) - 1) g H) as D.
  destruct (rounds x k (2 ^ (k - 1) - 1) g) as [a g1]. specialize (IH g1). destruct (levels x ks g1) as [r g2]. simpl in *. lra.
Qed.
Lemma along_outside l g : neighbours (fun a b => 1 / 2 <= Rabs (a + twist b)) l -> fst (along l g) = 0.
Proof.
  revert g. induction l as [|a [|b r] IH]; intros g H; try reflexivity. destruct H as [H1 H2].
  change (fst (let (v, g1) := fractal1d (a + twist b) g in let (rest, g2) := along (b :: r) g1 in (v + rest, g2)) = 0).
  pose proof (levels_outside _ (seq 1 3) g H1) as F. fold (fractal1d (a + twist b) g) in F. destruct (fractal1d (a + twist b) g) as [v g1]. specialize (IH g1 H2).
  destruct (along (b :: r) g1) as [w g2]. cbn [fst] in *. lra.
Qed.
Theorem fit_outside l g : l <> [] -> (length l <= 1000)%nat -> neighbours (fun a b => 1 / 2 <= Rabs (a + twist b)) l ->
  fst (fit l g) = Some (last l 0 + twist (hd 0 l)).
Proof.
  intros N L H. unfold FF_Model.fit. assert ((1000 <? length l)%nat = false) as -> by (apply Nat.ltb_ge; exact L).
  pose proof (along_outside l (seed 0) H) as A. destruct l as [|a r]; [now elim N|]. destruct (along (a :: r) (seed 0)) as [v g1]. cbn [fst hd] in *. f_equal. lra.
Qed.
Theorem fit_same l g g' : fit l g = fit l g'.
Proof. reflexivity. Qed.
Theorem fit_cases l g : (l = [] -> fst (fit l g) = None) /\ ((1000 < length l)%nat -> fst (fit l g) = Some 1) /\
  (forall x, l = [x] -> fst (fit l g) = Some (x + twist x)) /\ ((length l <= 1 \/ 1000 < length l)%nat -> snd (fit l g) = seed 0).
Proof.
  split; [intros ->; reflexivity|]. split.
  { intros L. unfold FF_Model.fit. apply Nat.ltb_lt in L. now rewrite L. }
  split.
  { intros x ->. unfold FF_Model.fit. cbn. f_equal. lra. }
  intros [L|L].
  - destruct l as [|x [|y l]]; [reflexivity| |simpl in L; lia]. reflexivity.
  - unfold FF_Model.fit. apply Nat.ltb_lt in L. now rewrite L.
Qed.

(** Upper bounds *)
Hypothesis HD : numpy_draws choice uniform.
Lemma dips_upper x k m g : fst (dips x k m g) <= INR m / 2 ^ (k - 1).
Proof.
  revert g. induction m as [|m IH]; intros g; [simpl; lra|]. cbn [FF_Model.dips]. pose proof (proj2 HD (snd (uniform g))) as U. destruct (uniform g) as [c g1]. cbn [snd] in U.
  destruct (uniform g1) as [u g2]. cbn [fst] in U. specialize (IH g2). destruct (dips x k m g2) as [r g3]. cbn [fst] in *.
  assert (P : 0 < 2 ^ (k - 1)) by (apply pow_lt; lra). rewrite S_INR.
  assert (S1 : 0 <= 1 / (2 ^ (k - 1) * (2 - u)) <= / 2 ^ (k - 1)).
  { unfold Rdiv. rewrite Rmult_1_l. assert (2 ^ (k - 1) <= 2 ^ (k - 1) * (2 - u)) by nra. split.
    - left. apply Rinv_0_lt_compat. nra.
    - apply Rinv_le_contravar; assumption. }
  pose proof (dip_upper x c (1 / (2 ^ (k - 1) * (2 - u))) (proj1 S1)). unfold Rdiv in *. nra.
Qed.
Lemma rounds_upper x k n g : fst (rounds x k n g) <= 2 * INR n / 2 ^ (k - 1).
Proof.
  revert g. induction n as [|n IH]; intros g; [simpl; lra|]. cbn [FF_Model.rounds]. pose proof (proj1 HD g) as C. destruct (choice g) as [s g1]. cbn [fst] in C.
  pose proof (dips_upper x k s g1) as D. destruct (dips x k s g1) as [a g2]. specialize (IH g2). destruct (rounds x k n g2) as [r g3]. cbn [fst] in *.
  assert (P : 0 < / 2 ^ (k - 1)) by (apply Rinv_0_lt_compat, pow_lt; lra). apply le_INR in C. change (INR 2) with 2 in C. rewrite S_INR. unfold Rdiv in *. nra.
Qed.
Lemma fractal_upper x g : fst (fractal1d x g) <= 5 / 2.
Proof.
  unfold FF_Model.fractal1d. cbn [seq FF_Model.levels].
  pose proof (rounds_upper x 1 (2 ^ (1 - 1) - 1) g) as A1. destruct (rounds x 1 (2 ^ (1 - 1) - 1) g) as [a1 g1].
  pose proof (rounds_upper x 2 (2 ^ (2 - 1) - 1) g1) as A2. destruct (rounds x 2 (2 ^ (2 - 1) - 1) g1) as [a2 g2].
  pose proof (rounds_upper x 3 (2 ^ (3 - 1) - 1) g2) as A3. destruct (rounds x 3 (2 ^ (3 - 1) - 1) g2) as [a3 g3].
  cbn [fst] in *. cbn in A1, A2, A3. lra.
Qed.
Lemma along_upper l g : l <> [] -> fst (along l g) <= 5 / 2 * (INR (length l) - 1).
Proof.
  revert g. induction l as [|a [|b r] IH]; intros g H; [elim H; reflexivity|change (0 <= 5 / 2 * (1 - 1)); lra|].
  change (fst (let (v, g1) := fractal1d (a + twist b) g in let (rest, g2) := along (b :: r) g1 in (v + rest, g2)) <= 5 / 2 * (INR (length (a :: b :: r)) - 1)).
  pose proof (fractal_upper (a + twist b) g) as F. destruct (fractal1d (a + twist b) g) as [v g1]. specialize (IH g1 ltac:(discriminate)).
  destruct (along (b :: r) g1) as [w g2]. cbn [fst] in *. change (length (a :: b :: r)) with (S (length (b :: r))). rewrite S_INR. lra.
Qed.
Theorem fit_upper l g v : (length l <= 1000)%nat -> fst (fit l g) = Some v -> v <= last l 0 + twist (hd 0 l) + 5 / 2 * (INR (length l) - 1).
Proof.
  intros L. unfold FF_Model.fit. assert ((1000 <? length l)%nat = false) as -> by (apply Nat.ltb_ge; exact L).
  destruct l as [|a r]; [discriminate|]. pose proof (along_upper (a :: r) (seed 0) ltac:(discriminate)) as A. destruct (along (a :: r) (seed 0)) as [w g1]. cbn [fst hd] in *.
  set (z := last (a :: r) 0). set (m := INR (length (a :: r))) in *. intros E. injection E as <-. lra.
Qed.
End P.

(** No minimum, and the value on an edge. *)
Lemma ones_neighbours n b : neighbours (fun a b => 1 / 2 <= Rabs (a + twist b)) (repeat 1 n ++ [b]).
Proof.
  assert (T : forall y, 1 / 2 <= Rabs (1 + twist y)) by (intros y; pose proof (twist_nonneg y); rewrite Rabs_pos_eq by lra; lra).
  induction n as [|n IH]; [exact I|]. simpl repeat. destruct n as [|n]; simpl in *; split; auto.
Qed.
Theorem fit_no_minimum G seed choice uniform n b (g : G) : (2 <= n <= 1000)%nat -> exists l, length l = n /\ last l 0 = b /\ Forall (fun x => x = 1) (removelast l) /\ fst (fit G seed choice uniform l g) = Some b.
Proof.
  intros Hn. exists (repeat 1 (n - 1) ++ [b]). split; [rewrite app_length, repeat_length; simpl; lia|]. split; [now rewrite last_last|]. split.
  - rewrite removelast_last. apply Forall_forall. intros x Hx. now apply repeat_spec in Hx.
  - rewrite fit_outside; [|destruct (repeat 1 (n - 1)); discriminate|rewrite app_length, repeat_length; simpl; lia|apply ones_neighbours].
    rewrite last_last. f_equal. destruct n as [|[|n]]; [lia|lia|]. simpl. rewrite twist_eq. lra.
Qed.
(** The draws of an optimizer start again at every evaluation. *)
Lemma search_next G seed choice uniform (draws : G -> R * G) propose g0 steps past g k : (S k < steps)%nat ->
  let D := search G seed choice uniform draws propose steps past g in nth_error D (S k) = Some (fst (draws (snd (fit G seed choice uniform (propose (past ++ firstn (S k) D)) g0)))).
Proof.
  revert past g k. induction steps as [|m IH]; intros past g k Hk; [lia|]. cbn [search]. destruct (draws g) as [d g1]. rewrite (fit_same G seed choice uniform _ g1 g0).
  destruct k as [|k].
  - destruct m as [|m]; [lia|]. cbn [search firstn]. destruct (draws (snd (fit G seed choice uniform (propose (past ++ [d])) g0))) as [d2 g2] eqn:E. reflexivity.
  - specialize (IH (past ++ [d]) (snd (fit G seed choice uniform (propose (past ++ [d])) g0)) k ltac:(lia)). cbn zeta in *.
    change (nth_error (search G seed choice uniform draws propose m (past ++ [d]) (snd (fit G seed choice uniform (propose (past ++ [d])) g0))) (S k) = Some (fst (draws (snd (fit G seed choice uniform (propose (past ++ d :: firstn (S k) (search G seed choice uniform draws propose m (past ++ [d]) (snd (fit G seed choice uniform (propose (past ++ [d])) g0))))) g0))))).
    rewrite IH. now rewrite <- app_assoc.
Qed.
Theorem search_draws G seed choice uniform (draws : G -> R * G) propose g0 steps g k : (S k < steps)%nat ->
  let D := search G seed choice uniform draws propose steps [] g in nth_error D (S k) = Some (fst (draws (snd (fit G seed choice uniform (propose (firstn (S k) D)) g0)))).
Proof. intros H. exact (search_next G seed choice uniform draws propose g0 steps [] g k H). Qed.
(** So with points of 1 coordinate every draw but the first is the same. *)
Theorem search_stuck G seed choice uniform (draws : G -> R * G) propose steps g k : (forall h, (length (propose h) <= 1)%nat) -> (S k < steps)%nat ->
  nth_error (search G seed choice uniform draws propose steps [] g) (S k) = Some (fst (draws (seed 0%nat))).
Proof.
  intros Hp H. rewrite (search_draws G seed choice uniform draws propose g steps g k H). f_equal. f_equal. f_equal. apply fit_cases. left. apply Hp.
Qed.
