(** C23 (ant colony, XNES) and C48.  [k_best] is in ACO_Spec.v, [good_calls] in XNES_Spec.v. *)
From Coq Require Import List Arith ZArith QArith Permutation Sorting.Sorted.
From Verif Require Import Base Space_Model Space_Spec Opt_Model Opt_Spec Pop_Model Pop_Spec Swarm_Model Swarm_Demo ACO_Model ACO_Spec ACO_Proofs XNES_Model XNES_Spec XNES_Proofs AcoXnes_Demo.
Import ListNotations.
Open Scope nat_scope.

(** C23: with an archive of at least two ants, ACO.evolute returns the best of all evaluations
    (initial ants included), the points it samples are inside the bounds, both histories are
    exact, the returned population is the last one with its values, and the archive consists
    of the [npop] best evaluations of the whole run. *)
Theorem C23_aco m fit ds : wf_dims ds -> forall nants npop, 2 <= npop -> npop <= nants -> forall expf c q z ngen drs init r,
  aco_evolute m fit ds expf c q z nants npop ngen drs init = Some r ->
  best_of m fit (ar_log r) (ar_x r) (ar_y r) /\
  (exists rest, ar_log r = init ++ rest /\ Forall (inside (dim_bounds ds)) rest) /\
  length (ar_log r) = nants * (ngen + 1) /\
  length (ar_hg r) = ngen /\ global_exact m fit nants 2 (ar_log r) (ar_hg r) /\ never_worse m (ar_hg r) /\
  nth_error (ar_hg r) (ngen - 1) = Some (ar_y r) /\
  length (ar_hl r) = ngen /\ local_exact m fit nants 2 (ar_log r) (ar_hl r) /\
  (exists early, ar_log r = early ++ ar_pop r) /\ length (ar_pop r) = nants /\ Forall2 (fun x v => (v == fit x)%Q) (ar_pop r) (ar_pf r) /\
  k_best snd npop (map (fun x => (x, as_min m (fit x))) (ar_log r)) (ar_arch r).
Proof. exact (aco_best_ok m fit ds). Qed.
Print Assumptions C23_aco.

(** C23: and it does not raise (exp is positive, random numbers are at most 1). *)
Theorem C23_aco_total m fit ds : wf_dims ds -> forall nants npop, 2 <= npop -> npop <= nants -> forall expf c q z ngen drs init,
  (forall x, (0 < expf x)%Q) -> (0 < c)%Q -> (forall g i j, (an_r (drs g i) j <= 1)%Q) ->
  length init = nants -> Forall (fun x => length x = length ds) init -> ngen <> 0 ->
  exists r, aco_evolute m fit ds expf c q z nants npop ngen drs init = Some r.
Proof. exact (aco_total m fit ds). Qed.
Print Assumptions C23_aco_total.

(** C23: the selection probabilities of the archive members are positive and sum to 1. *)
Theorem C23_aco_probs expf c q k : (forall x, (0 < expf x)%Q) -> (0 < c)%Q -> 1 <= k ->
  (qsum (aco_probs expf c q k) == 1)%Q /\ length (aco_probs expf c q k) = k /\ Forall (fun p => (0 < p)%Q) (aco_probs expf c q k).
Proof. exact (probs_sum expf c q k). Qed.
Print Assumptions C23_aco_probs.

(** C23: with an archive of one ant (accepted by the constructor) every sampled point is the
    empty vector: all its coordinates are NaN and the bound repair drops them. *)
Theorem C23_aco_single_refuted m fit ds probs z nants drs g st st' : wf_dims ds -> aco_gen m fit ds probs z nants 1 drs g st = Some st' ->
  ac_log st' = ac_log st ++ repeat [] nants.
Proof. exact (aco_single m fit ds probs z nants drs g st st'). Qed.
Print Assumptions C23_aco_single_refuted.

(** C23: variables declared 'int' receive fractional values. *)
Theorem C23_aco_integers_refuted : exists r x a b,
  aco_evolute Mmin dm_fit dm_ds one 1 (1#2) 1 4 2 1 (fun g i => AntDraw (fun _ => 0) (fun _ => -(1#2)))%Q dm_init = Some r /\
  In x (ar_log r) /\ x = [a; b] /\ ~ is_int b.
Proof. exact dm_aco_frac. Qed.
Print Assumptions C23_aco_integers_refuted.

(** C23: after any series of calls of XNES.evolute, the last call returns the best of all points
    evaluated by the object so far (x0, the start of the search, is not among them), all
    inside the bounds; the entries this call adds to the history are exact; the returned
    population is the last one, sorted, with its values.  Earlier entries are negated
    in 'min' mode. The internal record of the best centre is never set. *)
Theorem C23_xnes m fit ds : wf_dims ds -> forall n calls raws st st' r, 1 <= n -> good_calls ds n (calls ++ [raws]) ->
  xn_calls m fit ds xn_new calls = Some st -> xn_evolute m fit ds st raws = Some (st', r) ->
  best_of m fit (xn_log st') (xr_x r) (xr_y r) /\ Forall (inside (dim_bounds ds)) (xn_log st') /\
  (exists new, xn_log st' = xn_log st ++ new /\ length new = n * length raws) /\
  (exists h, xr_hist r = (match m with Mmin => map Qopp (xn_hist st) | Mmax => xn_hist st end) ++ h /\ length h = length raws /\
    (forall j v, nth_error h j = Some v -> exists x, best_of m fit (firstn (length (xn_log st) + n * (j + 1)) (xn_log st')) x v) /\
    never_worse m h /\ nth_error h (length raws - 1) = Some (xr_y r)) /\
  (exists early pos, xn_log st' = early ++ pos /\ length pos = n /\ Permutation pos (xr_pop r)) /\ Forall2 (fun x v => (v == fit x)%Q) (xr_pop r) (xr_pf r) /\
  xn_counter st' = length (concat (calls ++ [raws])) /\ xn_mu_set st' = false.
Proof. exact (xnes_best_ok m fit ds). Qed.
Print Assumptions C23_xnes.

Theorem C23_xnes_total m fit ds n st raws : 1 <= n -> Forall (fun raw : list (list Q) => length raw = n) raws -> raws <> [] ->
  exists st' r, xn_evolute m fit ds st raws = Some (st', r).
Proof. exact (xn_total m fit ds n st raws). Qed.
Print Assumptions C23_xnes_total.

(** C23: so on a second call in 'min' mode the reported history mixes signs (the first entry, 4, comes
    back as -4, "better" than the optimum found), and an integer variable is evaluated at 5/2. *)
Theorem C23_xnes_history_refuted : exists st st' r1 r2,
  xn_evolute Mmin xd_fit xd_ds xn_new xd_call1 = Some (st, r1) /\ xn_evolute Mmin xd_fit xd_ds st xd_call2 = Some (st', r2) /\
  Forall2 Qeq (xr_hist r1) [4]%Q /\ Forall2 Qeq (xr_hist r2) [-4; 1; 1]%Q /\ (xr_y r2 == 1)%Q /\
  In [5#2]%Q (xn_log st').
Proof. exact xd_signs. Qed.
Print Assumptions C23_xnes_history_refuted.

(** C48: the utilities of XNES sum to zero and increase with the rank (log increasing). *)
Theorem C48_utilities logf npop : (forall x y, (0 < x)%Q -> (x < y)%Q -> (logf x < logf y)%Q) -> 1 <= npop ->
  (qsum (xn_utilities logf npop) == 0)%Q /\ length (xn_utilities logf npop) = npop /\
  StronglySorted Qle (xn_utilities logf npop).
Proof. exact (utilities_sum logf npop). Qed.
Print Assumptions C48_utilities.

(** Hypotheses are met. *)
Example C23_demo_aco : exists r, aco_evolute Mmin dm_fit dm_ds one 1 (1#2) 1 4 2 3 dm_ant dm_init = Some r /\ (ar_y r < 125#4)%Q /\ length (ar_log r) = 16.
Proof. exact dm_aco. Qed.
Example C23_demo_aco_hyps : (forall x, (0 < one x)%Q) /\ (0 < 1)%Q /\ (forall g i j, (an_r (dm_ant g i) j <= 1)%Q) /\ Forall (fun x => length x = length dm_ds) dm_init.
Proof. exact dm_ant_ok. Qed.
Example C23_demo_xnes : wf_dims xd_ds /\ good_calls xd_ds 2 ([xd_call1] ++ [xd_call2]).
Proof. exact xd_ok. Qed.
Example C48_demo : (forall x y, (0 < x)%Q -> (x < y)%Q -> ((fun q => q) x < (fun q => q) y)%Q) /\ length (xn_utilities (fun q => q) 4) = 4.
Proof. split; auto. Qed.
