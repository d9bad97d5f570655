(** C24 and C26 for tabu search.  [pt_arg ds z] is [z] clipped to the bounds (the point handed to the
    user's function); it is [z] itself for points of the space. *)
From Coq Require Import List Arith ZArith QArith Permutation.
From Verif Require Import Base Space_Model Space_Spec Opt_Model Opt_Spec Pop_Model Pop_Spec Swarm_Model TS_Model TS_Spec TS_Proofs TS_Demo.
Import ListNotations.
Open Scope nat_scope.

(** C24: whatever the parameters, the returned value is the value of an evaluated point and not worse
    than that of any solution the search stood on; the history never gets worse and ends with it. *)
Theorem C24_ts_value m fit ds : wf_dims ds -> forall sm w tenure x0 ngen du dk r,
  ts_evolute m fit ds sm w tenure ngen du dk x0 = Some r ->
  (exists z, In z (tr_log r) /\ (tr_y r == fit z)%Q) /\
  (forall z, In z (stood x0 (tr_trail r)) -> In (pt_arg ds z) (tr_log r) /\ as_good m (tr_y r) (fit (pt_arg ds z))) /\
  length (tr_trail r) = ngen /\ length (tr_hg r) = ngen /\ never_worse m (tr_hg r) /\ nth_error (tr_hg r) (ngen - 1) = Some (tr_y r) /\
  length (tr_hl r) = ngen /\ (forall j s v, nth_error (tr_trail r) j = Some (Some s) -> nth_error (tr_hl r) j = Some v -> (v == fit (pt_arg ds (ts_to s)))%Q).
Proof. exact (ts_value m fit ds). Qed.
Print Assumptions C24_ts_value.

(** C24, C26: as long as penalised values stay below 1e11 the returned pair is consistent and is the
    best of the solutions the search stood on, entry j of the history is the best of the first j+1
    generations, and without penalty it is the best of all evaluations. *)
Theorem C24_ts m fit ds : wf_dims ds -> forall sm w tenure x0 ngen du dk r, small_values m fit ds w ngen ->
  ts_evolute m fit ds sm w tenure ngen du dk x0 = Some r ->
  best_of m (fun z => fit (pt_arg ds z)) (stood x0 (tr_trail r)) (tr_x r) (tr_y r) /\
  (forall j v, nth_error (tr_hg r) j = Some v -> exists x, best_of m (fun z => fit (pt_arg ds z)) (stood x0 (firstn (S j) (tr_trail r))) x v) /\
  ((w == 0)%Q -> best_of m fit (tr_log r) (pt_arg ds (tr_x r)) (tr_y r)).
Proof. exact (ts_best_stood m fit ds). Qed.
Print Assumptions C24_ts.

(** C24: it does not raise (swap mode: two variables at least, and a start holding 1..n). *)
Theorem C24_ts_total m fit ds sm w tenure x0 ngen du dk : ngen <> 0 -> length x0 = length ds ->
  match sm with Perturb => 1 <= length ds | Swap => 2 <= length ds /\ tour (length ds) x0 end ->
  exists r, ts_evolute m fit ds sm w tenure ngen du dk x0 = Some r.
Proof. exact (ts_total m fit ds sm w tenure x0 ngen du dk). Qed.
Print Assumptions C24_ts_total.

(** C24 fails over all evaluations: with the default settings the best evaluated neighbour (5) is
    passed over and 5.5 is returned. *)
Theorem C24_ts_evaluated_refuted : exists r, ts_evolute Mmin t2_fit t2_ds Perturb (8#10) 6 2 t2_du none2 [5; 5]%Q = Some r /\
  (tr_y r == 55#10)%Q /\ exists z, In z (tr_log r) /\ (t2_fit z == 5)%Q.
Proof. exact t2_passed. Qed.
Print Assumptions C24_ts_evaluated_refuted.

(** C26: pairing fails when a penalised value exceeds 1e11: returned value 1, value of the returned solution 4. *)
Theorem C26_pair_refuted : exists r, ts_evolute Mmin t1_fit t1_ds Perturb (inject_Z (10 ^ 12)) 6 2 (t1_du (4#10) (1#10) 0) none2 [5]%Q = Some r /\
  (tr_y r == 1)%Q /\ (t1_fit (tr_x r) == 4)%Q.
Proof. exact t1_mispair. Qed.
Print Assumptions C26_pair_refuted.

(** C26: in swap mode the returned solution and every solution the search stood on are permutations of the start. *)
Theorem C26_permutation m fit ds : wf_dims ds -> forall sm w tenure x0 ngen du dk r, sm = Swap ->
  ts_evolute m fit ds sm w tenure ngen du dk x0 = Some r ->
  Permutation x0 (tr_x r) /\ Forall (Permutation x0) (stood x0 (tr_trail r)).
Proof. exact (swap_permutation m fit ds). Qed.
Print Assumptions C26_permutation.

(** C26: every step applies the move it is recorded with to the previous solution; a move made
    (not by aspiration) is not repeated during its tenure unless the repetition is strictly better
    than every solution the search has stood on. *)
Theorem C26_tenure m fit ds : wf_dims ds -> forall sm w tenure x0 ngen du dk r,
  ts_evolute m fit ds sm w tenure ngen du dk x0 = Some r ->
  forall t stp, nth_error (made (tr_trail r)) t = Some stp ->
  (exists x e, nth_error (stood x0 (tr_trail r)) t = Some x /\ nth_error (ts_structure sm (length ds)) (ts_i stp) = Some e /\ one_move (te_move e) x (ts_to stp)) /\
  (forall s stq, s < t -> t <= s + tenure -> nth_error (made (tr_trail r)) s = Some stq -> ts_i stq = ts_i stp -> ts_asp stq = false ->
     ts_asp stp = true) /\
  (ts_asp stp = true -> forall z, In z (firstn (S t) (stood x0 (tr_trail r))) -> better m (fit (pt_arg ds (ts_to stp))) (fit (pt_arg ds z))).
Proof. exact (ts_tenure m fit ds). Qed.
Print Assumptions C26_tenure.

(** C26: tenure fails for moves made by aspiration: with tenure 1 the same move is made in two
    consecutive steps, the second time from value 3 to value 9. *)
Theorem C26_aspirated_refuted : exists r s t, ts_evolute Mmin t1_fit t1_ds Perturb (8#10) 1 3 (t1_du (4#10) (3#10) (9#10)) none2 [5]%Q = Some r /\
  nth_error (made (tr_trail r)) 1 = Some s /\ nth_error (made (tr_trail r)) 2 = Some t /\ ts_i s = ts_i t /\ ts_asp s = true /\ ts_asp t = false /\
  (t1_fit (ts_to s) == 3)%Q /\ (t1_fit (ts_to t) == 9)%Q.
Proof. exact t1_relist. Qed.
Print Assumptions C26_aspirated_refuted.

(** C26: in perturb mode everything stays in the space. *)
Theorem C26_perturb_feasible m fit ds : wf_dims ds -> forall sm w tenure x0 ngen du dk r, sm = Perturb ->
  (forall l i, (0 <= du l i)%Q /\ (du l i <= 1)%Q) -> feasible ds x0 ->
  ts_evolute m fit ds sm w tenure ngen du dk x0 = Some r ->
  feasible ds (tr_x r) /\ Forall (feasible ds) (stood x0 (tr_trail r)) /\ Forall (feasible ds) (tr_log r).
Proof. exact (perturb_feasible m fit ds). Qed.
Print Assumptions C26_perturb_feasible.

(** C26: so does swap mode when all variables have the same type and range ... *)
Theorem C26_swap_feasible m fit ds : wf_dims ds -> forall sm w tenure x0 ngen du dk r, sm = Swap -> uniform_dims ds -> feasible ds x0 ->
  ts_evolute m fit ds sm w tenure ngen du dk x0 = Some r ->
  feasible ds (tr_x r) /\ Forall (feasible ds) (stood x0 (tr_trail r)).
Proof. exact (swap_feasible m fit ds). Qed.
Print Assumptions C26_swap_feasible.

(** ... but not otherwise. *)
Theorem C26_swap_feasible_refuted : wf_dims t3_ds /\ feasible t3_ds [1; 2]%Q /\
  exists r, ts_evolute Mmin t3_fit t3_ds Swap (8#10) 6 1 zero2 none2 [1; 2]%Q = Some r /\ tr_x r = [2; 1]%Q /\ ~ feasible t3_ds (tr_x r).
Proof. exact t3_out. Qed.
Print Assumptions C26_swap_feasible_refuted.

(** C26: swap mode always raises with fewer than two variables, or when the start lacks one of the numbers 1..n. *)
Theorem C26_swap_raises m fit ds w tenure ngen du dk x0 :
  length ds <= 1 \/ (2 <= length ds /\ exists a, 1 <= a <= length ds /\ forall q, In q x0 -> ~ (q == qnat a)%Q) ->
  ts_evolute m fit ds Swap w tenure ngen du dk x0 = None.
Proof.
  exact (fun H => match H with
    | or_introl H1 => swap_one m fit ds w tenure ngen du dk x0 H1
    | or_intror (conj H1 (ex_intro _ a (conj H2 H3))) => swap_missing m fit ds w tenure ngen du dk x0 a H1 H2 H3
    end).
Qed.
Print Assumptions C26_swap_raises.

Example C26_demo : exists r, ts_evolute Mmin tw_fit tw_ds Swap (8#10) 2 4 zero2 none2 tw_x0 = Some r /\
  tr_x r = map qnat [3; 2; 1] /\ length (made (tr_trail r)) = 4.
Proof. exact tw_run. Qed.
Example C26_demo_hyps : wf_dims tw_ds /\ uniform_dims tw_ds /\ feasible tw_ds tw_x0 /\ tour 3 tw_x0 /\ small_values Mmin tw_fit tw_ds (8#10) 4.
Proof. exact tw_ok. Qed.
