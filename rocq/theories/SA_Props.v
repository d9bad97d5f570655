(** C21: Simulated Annealing. *)
From Coq Require Import List Arith ZArith QArith.
From Verif Require Import Base Space_Model Space_Spec Opt_Model Opt_Spec SA_Model SA_Spec SA_Proofs.
Import ListNotations.
Open Scope nat_scope.

(** C21: one chain, started at a point with its energy, for any temperatures and draws and the
    built-in move: one evaluation per step, each accepted or rejected, improvements are
    accepted; the best pair is the best of the starting point and all evaluated points, the
    current state is one of them with its own energy, all are in the space. *)
Theorem C21_chain expf m fit p fuel : wf_dims (sa_dims p) ->
  forall drs g j kmin kmax x0 E0 c, (forall a b k i t, (0 <= sd_su (drs a b k) i t <= 1)%Q) ->
  feasible (sa_dims p) x0 -> (E0 == as_max m (fit x0))%Q ->
  sa_chain expf m fit p None fuel drs g j kmin kmax x0 E0 = Some c ->
  length (ch_log c) = S kmax - kmin /\ ch_acc c + ch_rej c = S kmax - kmin /\ ch_imp c <= ch_acc c /\
  best_of m fit (x0 :: ch_log c) (ch_bx c) (as_max m (ch_bE c)) /\
  In (ch_x c) (x0 :: ch_log c) /\ (ch_E c == as_max m (fit (ch_x c)))%Q /\ Forall (feasible (sa_dims p)) (ch_log c).
Proof. exact (sa_chain_full expf m fit p fuel). Qed.
Print Assumptions C21_chain.

(** C21: the step of a chain is the Metropolis rule: the candidate produced by the move is
    evaluated and taken when it is an improvement or when the draw is at most
    exp(gain / temperature); otherwise the chain stays where it is. *)
Theorem C21_acceptance expf m fit p fuel : wf_dims (sa_dims p) ->
  forall drs g j kmin kmax x0 E0 c, kmin <= S kmax -> (forall a b k i t, (0 <= sd_su (drs a b k) i t <= 1)%Q) ->
  feasible (sa_dims p) x0 -> (E0 == as_max m (fit x0))%Q ->
  sa_chain expf m fit p None fuel drs g j kmin (S kmax) x0 E0 = Some c ->
  exists c0 x, sa_chain expf m fit p None fuel drs g j kmin kmax x0 E0 = Some c0 /\
    def_move fuel (sa_chi p j) (drs g j (S kmax)) 0 (sa_dims p) (ch_x c0) = Some x /\ ch_log c = ch_log c0 ++ [x] /\
    let gain := (as_max m (fit x) - ch_E c0)%Q in
    let rule := metropolis expf (sd_T (drs g j (S kmax))) (sd_acc (drs g j (S kmax))) gain in
    (rule -> ch_x c = x /\ ch_E c = as_max m (fit x) /\ ch_acc c = S (ch_acc c0) /\ ch_rej c = ch_rej c0) /\
    (~ rule -> ch_x c = ch_x c0 /\ ch_E c = ch_E c0 /\ ch_acc c = ch_acc c0 /\ ch_rej c = S (ch_rej c0)) /\
    ((0 < gain)%Q -> ch_imp c = S (ch_imp c0)) /\ (~ (0 < gain)%Q -> ch_imp c = ch_imp c0).
Proof. exact (sa_metropolis expf m fit p fuel). Qed.
Print Assumptions C21_acceptance.

(** C21: the whole run with the built-in move.  The returned value is the best of all
    evaluations, initial ones included; the returned position is the one with that value unless
    equilibrium cooling stopped the run. *)
Theorem C21_best expf rnd1 m fit p fuel : wf_dims (sa_dims p) ->
  forall ngen drs Ts rhos init r, (forall a b k i t, (0 <= sd_su (drs a b k) i t <= 1)%Q) ->
  Forall (feasible (sa_dims p)) init ->
  sa_evolute expf rnd1 m fit p None fuel ngen drs Ts rhos init = Some r ->
  (exists x, best_of m fit (sr_log r) x (sr_y r)) /\ In (sr_x r) (sr_log r) /\
  (sr_stop r = false -> best_of m fit (sr_log r) (sr_x r) (sr_y r)) /\
  (sr_stop r = true -> sa_eq p = true) /\
  Forall (feasible (sa_dims p)) (sr_log r) /\
  Forall (fun cs => length cs = sa_ncores p /\
     Forall (fun c => ch_acc c + ch_rej c = sa_npop p /\ ch_imp c <= ch_acc c) cs) (sr_runs r) /\
  length (sr_log r) = sa_ncores p + length (sr_runs r) * (sa_npop p * sa_ncores p) /\
  (forall v, In v (sr_hist r) -> as_good m (sr_y r) v).
Proof. exact (sa_best_default expf rnd1 m fit p fuel). Qed.
Print Assumptions C21_best.

(** C21: the same with any user-supplied move of the right length; evaluated points are then
    within the bounds. *)
Theorem C21_best_custom_move expf rnd1 m fit p mv fuel : wf_dims (sa_dims p) ->
  forall ngen drs Ts rhos init r,
  (forall a b k x, length x = length (sa_dims p) -> length (mv a b k x) = length (sa_dims p)) ->
  Forall (inside (dim_bounds (sa_dims p))) init ->
  sa_evolute expf rnd1 m fit p (Some mv) fuel ngen drs Ts rhos init = Some r ->
  (exists x, best_of m fit (sr_log r) x (sr_y r)) /\ In (sr_x r) (sr_log r) /\
  (sr_stop r = false -> best_of m fit (sr_log r) (sr_x r) (sr_y r)) /\
  (sr_stop r = true -> sa_eq p = true) /\
  Forall (inside (dim_bounds (sa_dims p))) (sr_log r) /\
  Forall (fun cs => length cs = sa_ncores p /\
     Forall (fun c => ch_acc c + ch_rej c = sa_npop p /\ ch_imp c <= ch_acc c) cs) (sr_runs r) /\
  length (sr_log r) = sa_ncores p + length (sr_runs r) * (sa_npop p * sa_ncores p) /\
  (forall v, In v (sr_hist r) -> as_good m (sr_y r) v).
Proof. intros W ngen drs Ts rhos init r. exact (sa_best expf rnd1 m fit p (Some mv) fuel W ngen drs Ts rhos init r). Qed.
Print Assumptions C21_best_custom_move.

(** C21: the built-in move stays in the space, leaves a coordinate alone when its draw is not
    below chi and otherwise changes it (unless its range is a single value). *)
Theorem C21_move fuel chi dr : (forall i t, (0 <= sd_su dr i t)%Q /\ (sd_su dr i t <= 1)%Q) ->
  forall ds i x y, wf_dims ds -> feasible ds x -> def_move fuel chi dr i ds x = Some y ->
  feasible ds y /\
  forall k d a b, nth_error ds k = Some d -> nth_error x k = Some a -> nth_error y k = Some b ->
    ((chi <= sd_u dr (i + k))%Q -> b = a) /\
    ((sd_u dr (i + k) < chi)%Q -> ~ (d_lo d == d_hi d)%Q -> ~ (b == a)%Q).
Proof. exact (def_move_spec fuel chi dr). Qed.
Print Assumptions C21_move.

(** C21: only the steps 1 .. ngen*chain_size of the cooling schedule are ever used. *)
Theorem C21_steps expf rnd1 m fit p mv fuel ngen drs drs' Ts rhos init :
  (forall gi j k, 1 <= k <= ngen * sa_npop p -> drs gi j k = drs' gi j k) ->
  sa_evolute expf rnd1 m fit p mv fuel ngen drs Ts rhos init = sa_evolute expf rnd1 m fit p mv fuel ngen drs' Ts rhos init.
Proof. exact (sa_steps expf rnd1 m fit p mv fuel ngen drs drs' Ts rhos init). Qed.
Print Assumptions C21_steps.

(** C21: without equilibrium cooling, with at least as many generations as chains and draws
    that let the built-in move change a coordinate, the run completes ngen/ncores generations. *)
Theorem C21_total expf rnd1 m fit p mv fuel : wf_dims (sa_dims p) ->
  forall ngen drs Ts rhos init, moves_ok p mv drs -> (mv = None -> 1 <= fuel /\ varied p fuel drs) -> Forall (sa_ok p mv) init ->
  length init = sa_ncores p -> 1 <= sa_npop p -> 1 <= sa_ncores p -> sa_ncores p <= ngen -> sa_eq p = false ->
  (forall a b, (rhos a b < 1)%Q) ->
  exists r, sa_evolute expf rnd1 m fit p mv fuel ngen drs Ts rhos init = Some r /\ sr_stop r = false /\
    length (sr_runs r) = ngen / sa_ncores p.
Proof. exact (sa_total expf rnd1 m fit p mv fuel). Qed.
Print Assumptions C21_total.

(** C21: with fewer generations than chains the call raises, whatever the rest. *)
Theorem C21_short_refuted expf rnd1 m fit p mv fuel ngen drs Ts rhos init : ngen < sa_ncores p ->
  sa_evolute expf rnd1 m fit p mv fuel ngen drs Ts rhos init = None.
Proof. exact (sa_short expf rnd1 m fit p mv fuel ngen drs Ts rhos init). Qed.
Print Assumptions C21_short_refuted.

(** C21: when equilibrium cooling stops the run, the returned position need not have the
    returned value. *)
Theorem C21_equilibrium_refuted : exists expf, (forall q, 0 < expf q)%Q /\ exists r,
  wf_dims (sa_dims sa_wit_par) /\
  sa_evolute expf (fun q => q) Mmax sa_wit_fit sa_wit_par (Some sa_wit_move) 0 20 sa_wit_draw (fun _ => 1%Q) (fun _ _ => 0%Q) [[10]; [20]]%Q = Some r /\
  sr_stop r = true /\ ~ (sr_y r == sa_wit_fit (sr_x r))%Q.
Proof. exact sa_equilibrium_wrong. Qed.
Print Assumptions C21_equilibrium_refuted.

(** C21: and when the acceptance rate is under the threshold in the first generation the call
    raises. *)
Theorem C21_equilibrium_raises_refuted expf rnd1 m fit p mv fuel ngen drs Ts rhos init : sa_eq p = true ->
  (forall cs, mean_accept rnd1 p cs <= sa_thr p)%Q ->
  sa_evolute expf rnd1 m fit p mv fuel ngen drs Ts rhos init = None.
Proof. exact (sa_stop_first expf rnd1 m fit p mv fuel ngen drs Ts rhos init). Qed.
Print Assumptions C21_equilibrium_raises_refuted.

(** Two chains on a mixed space meeting the hypotheses: 14 evaluations. *)
Example C21_demo expf rnd1 : exists r,
  sa_evolute expf rnd1 Mmax sa_demo_fit sa_demo_par None 2 4 sa_demo_draw (fun _ => 1%Q) (fun _ _ => 1#2)%Q sa_demo_init = Some r /\
  (9#2 <= sr_y r)%Q /\ length (sr_log r) = 14.
Proof. exact (sa_demo_runs expf rnd1). Qed.
Example C21_demo_hyps : wf_dims sa_demo_dims /\ Forall (feasible sa_demo_dims) sa_demo_init /\ length sa_demo_init = sa_ncores sa_demo_par /\
  (forall a b c, good_draw (sa_demo_draw a b c)) /\ varied sa_demo_par 2 sa_demo_draw.
Proof. exact sa_demo_ok. Qed.
