(** Concrete runs of tabu search. *)
From Coq Require Import List Arith ZArith QArith Bool Lia Lqa Permutation.
From Verif Require Import Base BaseFacts Space_Model Space_Spec Opt_Model Opt_Spec Opt_Facts Opt_Facts2 Pop_Model Pop_Spec Swarm_Model TS_Model TS_Spec TS_Proofs.
Import ListNotations.
Open Scope nat_scope.

Lemma in_pairs a b : forall n s, s <= a -> a < b -> b < s + n -> In (a, b) (pairs (seq s n)).
Proof.
  induction n as [|n IH]; intros s H1 H2 H3; [lia|]. cbn [seq pairs]. apply in_or_app. destruct (Nat.eq_dec s a) as [->|N].
  - left. apply in_map. apply in_seq. lia.
  - right. apply IH; lia.
Qed.

(** Swap mode needs at least two variables, and every number 1..n in the start. *)
Lemma swap_one m fit ds w tenure ngen du dk x0 : length ds <= 1 -> ts_evolute m fit ds Swap w tenure ngen du dk x0 = None.
Proof.
  intros H. unfold ts_evolute. destruct (negb _); auto. cbv zeta. destruct ngen; [reflexivity|]. cbn [gens].
  replace (ts_structure Swap (length ds)) with (@nil tent) by (destruct (length ds) as [|[|]]; [reflexivity|reflexivity|lia]). reflexivity.
Qed.

Lemma swap_missing m fit ds w tenure ngen du dk x0 a : 2 <= length ds -> 1 <= a <= length ds -> (forall q, In q x0 -> ~ (q == qnat a)%Q) ->
  ts_evolute m fit ds Swap w tenure ngen du dk x0 = None.
Proof.
  intros H Ha Hq. unfold ts_evolute. destruct (negb _); auto. cbv zeta. destruct ngen; [reflexivity|]. cbn [gens bind].
  match goal with |- context [ts_gen ?a1 ?a2 ?a3 ?a4 ?a5 ?a6 ?a7 0 ?s] => destruct (ts_gen a1 a2 a3 a4 a5 a6 a7 0 s) as [st|] eqn:E end; [|reflexivity].
  exfalso. unfold ts_gen in E. apply bind_Some in E. destruct E as (ec & Ec & _). apply scan_spec in Ec. cbn [tt_pos tt_es] in Ec.
  assert (exists c d, In (c, d) (pairs (seq 1 (length ds))) /\ (c = a \/ d = a)) as (c & d & Hin & Hcd).
  { destruct (Nat.eq_dec a 1) as [->|N]; [exists 1, 2; split; auto; apply in_pairs; lia|exists 1, a; split; auto; apply in_pairs; lia]. }
  assert (In (Ent (MSwap c d) 0 0 0 (Fin 0)) (ts_structure Swap (length ds))).
  { unfold ts_structure. apply in_map_iff. exists (MSwap c d). split; auto. apply in_map_iff. exists (c, d). auto. }
  apply In_nth_error in H0. destruct H0 as (i & Hi). destruct (F2_nth_l _ _ _ _ _ Ec Hi) as (p & _ & (_ & _ & _ & _ & _ & K & _)).
  cbn in K. destruct K as (i1 & i2 & q1 & q2 & K1 & K2 & K3 & K4 & _). destruct Hcd as [->| ->]; [apply (Hq q1)|apply (Hq q2)]; auto; eapply nth_error_In; eauto.
Qed.

(** Three cities; the cost of a tour prefers 3,1,2. *)
Definition tw_ds : list dimn := repeat (Dim true 1 3) 3.
Definition tw_fit (x : list Q) : Q := match x with [a; b; c] => (4 * a * a * -1 + b + 2 * c + 50)%Q | _ => 0%Q end.
Definition zero2 (l i : nat) : Q := 0%Q.
Definition none2 (l i : nat) : nat := 0.
Definition tw_x0 : list Q := map qnat [1; 2; 3].
Lemma tw_run : exists r, ts_evolute Mmin tw_fit tw_ds Swap (8#10) 2 4 zero2 none2 tw_x0 = Some r /\
  tr_x r = map qnat [3; 2; 1] /\ length (made (tr_trail r)) = 4.
Proof. eexists. split; [vm_compute; reflexivity|]. split; reflexivity. Qed.
Lemma tw_ok : wf_dims tw_ds /\ uniform_dims tw_ds /\ feasible tw_ds tw_x0 /\ tour 3 tw_x0 /\ small_values Mmin tw_fit tw_ds (8#10) 4.
Proof.
  split; [demo_space|]. split; [exists (Dim true 1 3); repeat constructor|]. split; [demo_space|]. split.
  - split; [reflexivity|]. intros a Ha. assert (a = 1 \/ a = 2 \/ a = 3) as [->|[->| ->]] by lia; [exists (qnat 1)|exists (qnat 2)|exists (qnat 3)]; (split; [unfold tw_x0; simpl; auto|reflexivity]).
  - intros z j Hz Hj. inversion Hz as [|? a ? z1 (A1 & A2) H1]; subst. inversion H1 as [|? b ? z2 (B1 & B2) H2]; subst.
    inversion H2 as [|? c ? z3 (C1 & C2) H3]; subst. inversion H3; subst. cbn [tw_fit as_min d_lo d_hi fst snd] in *.
    assert (J : (qnat j <= 4)%Q) by (unfold qnat; change 4%Q with (inject_Z 4); rewrite <- Zle_Qle; lia).
    change (inject_Z (10 ^ 11)) with (100000000000 # 1). nra.
Qed.

(** One continuous variable, value = the variable. *)
Definition t1_ds : list dimn := [Dim false 0 10]%Q.
Definition t1_fit (x : list Q) : Q := match x with [a] => a | _ => 0%Q end.
Definition t1_du (a b c : Q) (l i : nat) : Q := match l with 0 => a | 1 => b | _ => c end.

(** The penalty pushes a candidate above 1e11: no move, but its value is recorded for the old position. *)
Lemma t1_mispair : exists r, ts_evolute Mmin t1_fit t1_ds Perturb (inject_Z (10 ^ 12)) 6 2 (t1_du (4#10) (1#10) 0) none2 [5]%Q = Some r /\
  (tr_y r == 1)%Q /\ (t1_fit (tr_x r) == 4)%Q.
Proof. eexists. split; [vm_compute; reflexivity|]. split; reflexivity. Qed.

(** A move made by aspiration is made again at once, to a worse solution. *)
Lemma t1_relist : exists r s t, ts_evolute Mmin t1_fit t1_ds Perturb (8#10) 1 3 (t1_du (4#10) (3#10) (9#10)) none2 [5]%Q = Some r /\
  nth_error (made (tr_trail r)) 1 = Some s /\ nth_error (made (tr_trail r)) 2 = Some t /\ ts_i s = ts_i t /\ ts_asp s = true /\ ts_asp t = false /\
  (t1_fit (ts_to s) == 3)%Q /\ (t1_fit (ts_to t) == 9)%Q.
Proof. eexists. eexists. eexists. split; [vm_compute; reflexivity|]. repeat split. Qed.

(** Two variables, value = sum: with the default penalty the best evaluated neighbour is passed over. *)
Definition t2_ds : list dimn := [Dim false 0 10; Dim false 0 10]%Q.
Definition t2_fit (x : list Q) : Q := match x with [a; b] => (a + b)%Q | _ => 0%Q end.
Definition t2_du (l i : nat) : Q := match l, i with 0, 0 => 1#10 | 0, _ => 6#10 | _, 0 => 0%Q | _, _ => 45#100 end.
Lemma t2_passed : exists r, ts_evolute Mmin t2_fit t2_ds Perturb (8#10) 6 2 t2_du none2 [5; 5]%Q = Some r /\
  (tr_y r == 55#10)%Q /\ exists z, In z (tr_log r) /\ (t2_fit z == 5)%Q.
Proof.
  eexists. split; [vm_compute; reflexivity|]. split; [reflexivity|]. eexists. split; [right; right; right; left; reflexivity|]. reflexivity.
Qed.

(** Two integer variables with different ranges: swapping leaves the space. *)
Definition t3_ds : list dimn := [Dim true 1 2; Dim true 2 3]%Q.
Definition t3_fit (x : list Q) : Q := match x with [a; b] => (- a)%Q | _ => 0%Q end.
Lemma t3_out : wf_dims t3_ds /\ feasible t3_ds [1; 2]%Q /\ exists r, ts_evolute Mmin t3_fit t3_ds Swap (8#10) 6 1 zero2 none2 [1; 2]%Q = Some r /\
  tr_x r = [2; 1]%Q /\ ~ feasible t3_ds (tr_x r).
Proof.
  split; [demo_space|]. split; [demo_space|]. eexists. split; [vm_compute; reflexivity|]. split; [reflexivity|].
  intros F. inversion F as [|? ? ? ? _ F2]. inversion F2 as [|? ? ? ? (K & _) _]. cbn in K. apply K. reflexivity.
Qed.
