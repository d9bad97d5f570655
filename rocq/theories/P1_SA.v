(** Proofs about PESA: simulated annealing with greedy replay. *)
From Coq Require Import List Arith ZArith QArith Bool Lia Lqa Permutation Sorted.
From Verif Require Import Base BaseFacts Space_Model Space_Spec Space_Facts ER_Model ER_Proofs P2_Mem Opt_Model Opt_Spec Opt_Facts Opt_Facts2
  ES_Model PSO_Model SA_Model SA_Spec SA_Proofs P1_Model P1_Spec P1_ES.
Import ListNotations.
Open Scope nat_scope.

(** Same samples, possibly in another order. *)
Definition reordered (a b : p1_mem) : Prop := Permutation (store a) (store b) /\ msize a = msize b /\ next a = next b.
Lemma reordered_refl a : reordered a a.
Proof. split; auto. Qed.
Lemma reordered_trans a b c : reordered a b -> reordered b c -> reordered a c.
Proof. intros (A & B & C) (A' & B' & C'). split; [eapply Permutation_trans; eauto|split; congruence]. Qed.
Lemma reordered_sort a : reordered a (sort_store a).
Proof. split; [|split; reflexivity]. apply Permutation_sym. apply (ER_Proofs.sort_desc_perm (store a)). Qed.

Section SA.
Context (expf : Q -> Q) (m : mode) (fit : list Q -> Q) (p : p1_par) (fuel : nat).
Context (W : wf_dims (p1_dims p)).
Local Notation g := (p1_score m fit).
Local Notation ok := (feasible (p1_dims p)).

Definition walk_ok (x0 : list Q) (n : nat) (c : chain) : Prop :=
  ok (ch_x c) /\ (ch_E c == g (ch_x c))%Q /\ In (ch_x c) (x0 :: ch_log c) /\
  max_of g (x0 :: ch_log c) (ch_bx c) (ch_bE c) /\ Forall ok (ch_log c) /\ length (ch_log c) = n.

Lemma s_step_ok j dr x0 n mem c mem' c' : good_draw (snd dr) -> Forall (fun a => ok (sx a)) (store mem) -> walk_ok x0 n c ->
  s_step expf m fit p fuel j dr (mem, c) = Some (mem', c') -> reordered mem mem' /\ walk_ok x0 (S n) c'.
Proof.
  intros HM FM (A1 & A2 & A3 & A4 & A5 & A8) H. unfold s_step in H.
  apply bind_Some in H. destruct H as ([mem1 x] & Hy & H). cbv zeta in H. injection H as E1 H.
  assert (R : reordered mem mem1 /\ ok x).
  { destruct (Qltb _ _).
    - destruct (sample_greedy mem 1) as [m1 top] eqn:Eg. apply bind_Some in Hy. destruct Hy as (b & Hb & Hy). injection Hy as <- <-.
      pose proof (f_equal snd Eg) as T2. change (firstn 1 (store (sort_store mem)) = top) in T2.
      pose proof (f_equal fst Eg) as T1. change (sort_store mem = m1) in T1. split; [rewrite <- T1; apply reordered_sort|]. rewrite <- T2 in Hb.
      apply nth_error_In in Hb. apply in_firstn in Hb. apply (proj1 (sort_store_in mem b)) in Hb. rewrite Forall_forall in FM. exact (FM b Hb).
    - apply bind_Some in Hy. destruct Hy as (y & Hm & Hy). injection Hy as <- <-. split; [apply reordered_refl|].
      apply def_move_spec in Hm; auto. tauto. }
  destruct R as (R & OK). rewrite E1 in R. split; auto. clear Hy.
  destruct (max_of_app g (x0 :: ch_log c) [x] _ _ x (g x) A4 (max_of_single g x)) as [M1 M2].
  assert (FO : Forall ok (ch_log c ++ [x])) by (apply Forall_app; auto).
  assert (LL : length (ch_log c ++ [x]) = S n) by (rewrite app_length; simpl; lia).
  assert (LA : In x (x0 :: ch_log c ++ [x])) by (right; apply in_app_iff; simpl; auto).
  assert (LB : In (ch_x c) (x0 :: ch_log c ++ [x])) by (destruct A3 as [?|?]; [left|right; apply in_app_iff]; auto).
  assert (BE : (ch_E c <= ch_bE c)%Q) by (rewrite A2; apply A4; auto).
  destruct (Qltb 0 (g x - ch_E c)) eqn:D1; qprop.
  - destruct (Qltb (ch_bE c) (g x)) eqn:D2; qprop; subst c'; unfold walk_ok; cbn [ch_x ch_E ch_acc ch_rej ch_imp ch_bx ch_bE ch_log].
    + split; [auto|]. split; [reflexivity|]. split; [auto|]. split; [apply M2; lra|]. auto.
    + split; [auto|]. split; [reflexivity|]. split; [auto|]. split; [apply M1; lra|]. auto.
  - assert (MM : max_of g (x0 :: ch_log c ++ [x]) (ch_bx c) (ch_bE c)) by (apply M1; lra).
    destruct (Qle_bool _ _); subst c'; unfold walk_ok; cbn [ch_x ch_E ch_acc ch_rej ch_imp ch_bx ch_bE ch_log].
    + split; [auto|]. split; [reflexivity|]. auto.
    + split; [auto|]. split; [auto|]. auto.
Qed.

Lemma walk_start x0 E0 : ok x0 -> (E0 == g x0)%Q -> walk_ok x0 0 (Chain x0 E0 0 0 0 x0 E0 []).
Proof.
  intros O HE. unfold walk_ok; cbn [ch_x ch_E ch_acc ch_rej ch_imp ch_bx ch_bE ch_log].
  split; [auto|]. split; [auto|]. split; [left; auto|]. split; [|auto].
  split; [left; auto|]. split; [auto|]. intros z [<-|[]]. lra.
Qed.

Lemma s_chain_ok drs mem j k n x0 E0 mem' c : (forall k, good_draw (snd (drs j k))) -> Forall (fun a => ok (sx a)) (store mem) -> ok x0 -> (E0 == g x0)%Q ->
  s_chain expf m fit p fuel drs mem j k n x0 E0 = Some (mem', c) -> reordered mem mem' /\ walk_ok x0 n c.
Proof.
  intros HM FM O HE H. unfold s_chain in H.
  assert (G : forall todo k n mem0 c0 mem' c, reordered mem mem0 -> walk_ok x0 n c0 ->
    gens (fun k mc => s_step expf m fit p fuel j (drs j k) mc) k todo (mem0, c0) = Some (mem', c) -> reordered mem mem' /\ walk_ok x0 (todo + n) c).
  { induction todo as [|t IH]; intros k0 n0 mem0 c0 mem1 c1 R I E; cbn [gens] in E; [inversion E; subst; auto|].
    apply bind_Some in E. destruct E as ([mem2 c2] & E2 & E). apply (s_step_ok _ _ x0 n0) in E2; auto.
    - destruct E2 as (R2 & E2). apply (IH _ (S n0)) in E; auto; [replace (S t + n0) with (t + S n0) by lia; auto|]. eapply reordered_trans; eauto.
    - destruct R as (R & _). rewrite Forall_forall in *. intros a Ha. apply FM. eapply Permutation_in; [symmetry; exact R|auto]. }
  apply (G _ _ 0) in H; [rewrite Nat.add_0_r in H; auto|apply reordered_refl|apply walk_start; auto].
Qed.

(** All chains: the logs, the last and the best state of each. *)
Lemma s_chains_ok drs : (forall j k, good_draw (snd (drs j k))) -> forall xs es mem j k n mem' cs,
  Forall (fun a => ok (sx a)) (store mem) -> Forall ok xs -> Forall2 (fun x e => e == g x)%Q xs es ->
  s_chains expf m fit p fuel drs mem j k n xs es = Some (mem', cs) ->
  reordered mem mem' /\ Forall2 (fun x c => walk_ok x n c) xs cs.
Proof.
  intros HM. induction xs as [|x xs IH]; intros es mem j k n mem' cs FM F F2 H; inversion F2 as [|? e ? es' E F2']; subst; cbn [s_chains] in H.
  - injection H as <- <-. split; [apply reordered_refl|constructor].
  - inversion F as [|? ? Fx Fs]; subst. apply bind_Some in H. destruct H as ([mem1 c] & E1 & H).
    apply bind_Some in H. destruct H as ([mem2 cs'] & E2 & H). injection H as <- <-.
    apply s_chain_ok in E1; auto. destruct E1 as (R1 & K1).
    assert (FM' : Forall (fun a => ok (sx a)) (store (if p1_proc p then mem else mem1))).
    { destruct (p1_proc p); auto. destruct R1 as (R1 & _). rewrite Forall_forall in *. intros a Ha. apply FM.
      eapply Permutation_in; [symmetry; exact R1|auto]. }
    destruct (IH _ _ _ _ _ _ _ FM' Fs F2' E2) as (R2 & K2). split; auto.
    destruct (p1_proc p); auto. eapply reordered_trans; eauto.
Qed.

Lemma walks_all xs cs n : Forall2 (fun x c => walk_ok x n c) xs cs ->
  length (concat (map ch_log cs)) = length xs * n /\ Forall ok (concat (map ch_log cs)) /\
  forall c, In c cs -> incl (ch_log c) (concat (map ch_log cs)) /\ exists x, In x xs /\ walk_ok x n c.
Proof.
  induction 1 as [|x c xs cs Hw HF IH]; cbn [map concat length Nat.mul].
  - split; [lia|]. split; [constructor|]. intros c [].
  - destruct IH as (I1 & I2 & I3). destruct Hw as (A1 & A2 & A3 & A4 & A5 & A6). split; [rewrite app_length; lia|].
    split; [apply Forall_app; auto|]. intros c' [<-|Hc].
    + split; [intros z Hz; apply in_app_iff; auto|]. exists x. split; [left; auto|]. repeat split; auto; apply A4.
    + destruct (I3 c' Hc) as (J1 & y & J2 & J3). split; [intros z Hz; apply in_app_iff; auto|]. exists y. split; [right; auto|auto].
Qed.

Lemma sa_mod_ok drs mem step xs es mem' cs : (forall j k, good_draw (snd (drs j k))) ->
  Forall (fun a => ok (sx a)) (store mem) -> Forall ok xs -> Forall2 (fun x e => e == g x)%Q xs es ->
  sa_mod expf m fit p fuel drs mem step xs es = Some (mem', cs) ->
  reordered mem mem' /\ length cs = p1_chains p /\ length (concat (map ch_log cs)) = p1_npop p /\ Forall ok (concat (map ch_log cs)) /\
  (forall c, In c cs -> ok (ch_x c) /\ ok (ch_bx c) /\ (ch_E c == g (ch_x c))%Q /\ (ch_bE c == g (ch_bx c))%Q /\
     In (ch_x c) (xs ++ concat (map ch_log cs)) /\ In (ch_bx c) (xs ++ concat (map ch_log cs))) /\
  (forall x, In x (concat (map ch_log cs)) -> exists c, In c cs /\ (g x <= ch_bE c)%Q).
Proof.
  intros HM FM F F2 H. unfold sa_mod in H. cbv zeta in H.
  destruct (negb _) eqn:N; [discriminate|]. apply negb_false_iff in N. apply andb_true_iff in N. destruct N as (N & N3).
  apply andb_true_iff in N. destruct N as (N1 & N2). apply Nat.eqb_eq in N1, N2, N3.
  apply s_chains_ok in H; auto. destruct H as (R & K). split; auto.
  pose proof (Forall2_length _ _ _ K) as L. split; [congruence|].
  destruct (walks_all _ _ _ K) as (A1 & A2 & A3).
  split. { rewrite A1, N1. destruct (p1_chains p) as [|c]; [cbn [Nat.modulo] in N3; rewrite N3; reflexivity|].
    pose proof (Nat.div_mod (p1_npop p) (S c) ltac:(lia)) as D. lia. }
  split; auto. split.
  - intros c Hc. destruct (A3 c Hc) as (I & x & Hx & (B1 & B2 & B3 & B4 & B5 & B6)).
    assert (Inc : forall z, In z (x :: ch_log c) -> In z (xs ++ concat (map ch_log cs)) /\ ok z).
    { intros z [<-|Hz]; [split; [apply in_app_iff; auto|rewrite Forall_forall in F; auto]|].
      split; [apply in_app_iff; right; apply I; auto|rewrite Forall_forall in B5; auto]. }
    destruct B4 as (B41 & B42 & B43). split; auto. split; [apply Inc; auto|]. split; auto. split; auto. split; apply Inc; auto.
  - intros x Hx. apply in_concat in Hx. destruct Hx as (l & Hl & Hx). apply in_map_iff in Hl. destruct Hl as (c & <- & Hc).
    exists c. split; auto. destruct (A3 c Hc) as (_ & y & _ & (_ & _ & _ & B4 & _)). apply B4. right; auto.
Qed.

(** No exception. *)
Lemma s_step_total j dr x0 n mem c : good_draw (snd dr) -> store mem <> [] -> walk_ok x0 n c ->
  (forall i d, nth_error (p1_dims p) i = Some d -> (d_lo d == d_hi d)%Q \/ exists t1 t2, t1 < fuel /\ t2 < fuel /\
     ~ (gen_coord d (sd_su (snd dr) i t1) (sd_sk (snd dr) i t1) == gen_coord d (sd_su (snd dr) i t2) (sd_sk (snd dr) i t2))%Q) ->
  1 <= fuel -> exists mem' c', s_step expf m fit p fuel j dr (mem, c) = Some (mem', c').
Proof.
  intros HM NE (C & _) HV HF. unfold s_step.
  match goal with |- context [bind ?a _] => assert (exists mx, a = Some mx) as ([mem' x] & ->) end.
  { destruct (Qltb _ _).
    - destruct (greedy_spec mem NE) as (b & G1 & _). destruct (sample_greedy mem 1) as [m1 top]. cbn [snd] in G1. rewrite G1. cbn [bind]. eauto.
    - destruct (def_move_total fuel (p1_chi p j) (snd dr) (p1_dims p) 0 (ch_x c) C) as (y & ->); [|cbn [bind]; eauto].
      intros i d q Hd _. cbn [Nat.add].
      destruct (HV i d Hd) as [|(t1 & t2 & L1 & L2 & N)]; [exists 0; auto|].
      destruct (Qeq_dec q (gen_coord d (sd_su (snd dr) i t1) (sd_sk (snd dr) i t1))) as [E|E]; [|eauto].
      exists t2. split; auto. right. intros E2. apply N. rewrite <- E, <- E2. reflexivity. }
  cbn [bind]. eauto.
Qed.

Lemma s_chains_total drs : (forall j k, good_draw (snd (drs j k))) -> 1 <= fuel ->
  (forall j k i d, nth_error (p1_dims p) i = Some d -> (d_lo d == d_hi d)%Q \/ exists t1 t2, t1 < fuel /\ t2 < fuel /\
     ~ (gen_coord d (sd_su (snd (drs j k)) i t1) (sd_sk (snd (drs j k)) i t1) == gen_coord d (sd_su (snd (drs j k)) i t2) (sd_sk (snd (drs j k)) i t2))%Q) ->
  forall xs es mem j k n, store mem <> [] ->
  Forall (fun a => ok (sx a)) (store mem) -> Forall ok xs -> Forall2 (fun x e => e == g x)%Q xs es ->
  exists mem' cs, s_chains expf m fit p fuel drs mem j k n xs es = Some (mem', cs).
Proof.
  intros HM HF HV. induction xs as [|x xs IH]; intros es mem j k n NE FM F F2; inversion F2 as [|? e ? es' E F2']; subst; cbn [s_chains]; eauto.
  inversion F as [|? ? Fx Fs]; subst.
  assert (exists mem1 c, s_chain expf m fit p fuel drs mem j k n x e = Some (mem1, c)) as (mem1 & c & E1).
  { unfold s_chain.
    destruct (gens_total (fun k mc => s_step expf m fit p fuel j (drs j k) mc)
      (fun mc => reordered mem (fst mc) /\ exists n, walk_ok x n (snd mc))) with
      (todo := n) (g := k) (s := (mem, Chain x e 0 0 0 x e [])) as ([mem1 c] & E1 & _); eauto.
    - intros k0 [mem0 c0] (R & n0 & K). cbn [fst snd] in *. destruct R as (R & R').
      destruct (s_step_total j (drs j k0) x n0 mem0 c0) as (mem2 & c2 & E2); auto.
      { intros N. apply NE. rewrite N in R. apply Permutation_sym, Permutation_nil in R. auto. }
      exists (mem2, c2). split; auto. cbn [fst snd]. apply (s_step_ok _ _ x n0) in E2; auto.
      + destruct E2 as (R2 & K2). split; [eapply reordered_trans; [split; [exact R|exact R']|exact R2]|eauto].
      + rewrite Forall_forall in *. intros a Ha. apply FM. eapply Permutation_in; [symmetry; exact R|auto].
    - cbn [fst snd]. split; [apply reordered_refl|]. exists 0. apply walk_start; auto. }
  rewrite E1. cbn [bind]. apply s_chain_ok in E1; auto. destruct E1 as ((R1 & _) & K1).
  match goal with |- context [s_chains _ _ _ _ _ _ ?mm (S j) _ _ _ _] => destruct (IH es' mm (S j) (k + n) n) as (mem2 & cs & ->); auto; [| |cbn [bind]; eauto] end.
  - destruct (p1_proc p); auto. intros N. apply NE. rewrite N in R1. apply Permutation_sym, Permutation_nil in R1. auto.
  - destruct (p1_proc p); auto. rewrite Forall_forall in *. intros a Ha. apply FM. eapply Permutation_in; [symmetry; exact R1|auto].
Qed.
End SA.
