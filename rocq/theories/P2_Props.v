(** Theorems C68 and C69 about PESA2. *)
From Coq Require Import List Arith ZArith QArith Bool.
From Verif Require Import Base Space_Model Space_Spec Opt_Model Opt_Spec Pop_Spec P2_Model P2_Spec P2_Final P2_Demo P2_Wit P2_Start.
Import ListNotations.
Open Scope nat_scope.

(** C68: with parameters as documented, PESA2 always returns, whatever the random draws, the
    memory size and the integer transformation; what it returns and everything it evaluates lies
    in the space. *)
Theorem C68_total expf cosf pwf m fit p ngen replay_every xs attr drs : p2_ready p ngen replay_every xs ->
  exists r, p2_evolute expf cosf pwf m fit p attr ngen replay_every drs xs = Some r /\
    feasible (p2_dims p) (pq_x r) /\ Forall (feasible (p2_dims p)) (pq_seen r).
Proof. exact (p2_total expf cosf pwf m fit p ngen replay_every xs attr drs). Qed.
Print Assumptions C68_total.

(** C68: the returned pair and the history.  The returned point was evaluated, its value is the
    fitness of that point, the history has one entry per replay, its last entry is the returned
    value; every population the three methods hand to the memory has the right size and carries
    the fitness of its points; every entry of the history is the fitness of a warm-up point or of
    a reported point up to that replay. *)
Theorem C68_report expf cosf pwf m fit p ngen replay_every xs attr drs r : p2_ready p ngen replay_every xs ->
  respects fit -> no_sharing_trouble p -> p2_evolute expf cosf pwf m fit p attr ngen replay_every drs xs = Some r ->
  point_in (pq_x r) (pq_seen r) /\ point_in (pq_x r) (offered xs (pq_pops r) (ngen / replay_every)) /\ (pq_y r == fit (pq_x r))%Q /\
  length (pq_hist r) = ngen / replay_every /\ nth_error (pq_hist r) (ngen / replay_every - 1) = Some (pq_y r) /\
  length (pq_pops r) = ngen / replay_every /\
  (forall pop, In pop (pq_pops r) -> length pop = p2_nwolves p + p2_npop p + p2_nwhales p /\
     forall x v, In (x, v) pop -> feasible (p2_dims p) x /\ (v == as_max m (fit x))%Q /\ point_in x (pq_seen r)) /\
  (forall i v, nth_error (pq_hist r) i = Some v -> exists z, In z (offered xs (pq_pops r) (S i)) /\ (v == fit z)%Q).
Proof. exact (p2_report expf cosf pwf m fit p ngen replay_every xs attr drs r). Qed.
Print Assumptions C68_report.

(** C68: when each method passes on at least one survivor and the memory does not run full, entry
    [i] of the history is the best fitness among the warm-up points and all populations reported
    up to that replay, the history never gets worse, and the returned value is the best of all of
    them. *)
Theorem C68_best expf cosf pwf m fit p ngen replay_every xs attr drs r : p2_ready p ngen replay_every xs ->
  respects fit -> no_sharing_trouble p -> p2_evolute expf cosf pwf m fit p attr ngen replay_every drs xs = Some r ->
  nothing_dropped p (p2_size attr (ngen / replay_every * p2_npop p)) (length xs) (ngen / replay_every) ->
  (forall i v, nth_error (pq_hist r) i = Some v ->
     (exists z, In z (offered xs (pq_pops r) (S i)) /\ (v == fit z)%Q) /\
     forall z, In z (offered xs (pq_pops r) (S i)) -> as_good m v (fit z)) /\
  never_worse m (pq_hist r) /\
  (forall z, In z (offered xs (pq_pops r) (ngen / replay_every)) -> as_good m (pq_y r) (fit z)).
Proof. exact (p2_best_of_all expf cosf pwf m fit p ngen replay_every xs attr drs r). Qed.
Print Assumptions C68_best.

(** C68: the replay exponent.  The first replay uses alpha_init; it never decreases and never
    leaves the range; no replay of the run uses alpha_end itself. *)
Theorem C68_alphas expf cosf pwf m fit p ngen replay_every xs attr drs r : p2_ready p ngen replay_every xs ->
  respects fit -> no_sharing_trouble p -> p2_evolute expf cosf pwf m fit p attr ngen replay_every drs xs = Some r ->
  (p2_alpha0 p < p2_alpha1 p)%Q ->
  length (pq_alphas r) = ngen / replay_every /\ nth_error (pq_alphas r) 0 = Some (p2_alpha0 p) /\
  (forall i a, nth_error (pq_alphas r) i = Some a -> (p2_alpha0 p <= a)%Q /\ (a < p2_alpha1 p)%Q) /\
  (forall i j a b, i <= j -> nth_error (pq_alphas r) i = Some a -> nth_error (pq_alphas r) j = Some b -> (a <= b)%Q).
Proof. exact (p2_alphas expf cosf pwf m fit p ngen replay_every xs attr drs r). Qed.
Print Assumptions C68_alphas.

(** C68: the three populations start from best warm-up samples. *)
Theorem C68_start m fit p ngen replay_every xs attr st : p2_ready p ngen replay_every xs -> p2_start m fit p attr ngen replay_every xs = Some st ->
  best_points m fit (p2_nwolves p) xs (map (h_get (ps_heap st)) (ps_gwo st)) /\
  best_points m fit (p2_npop p) xs (map (h_get (ps_heap st)) (ps_de st)) /\
  best_points m fit (p2_nwhales p) xs (map (h_get (ps_heap st)) (ps_woa st)).
Proof. exact (fun RD => start_best m fit p ngen replay_every xs attr RD st). Qed.
Print Assumptions C68_start.

(** C68: whatever the size of the memory, the DE members reported in a replay contain one at least
    as good as any warm-up sample and any DE member reported before, when DE passes on a survivor
    and rounding keeps integers. *)
Theorem C68_de expf cosf pwf m fit p ngen replay_every xs attr drs r : p2_ready p ngen replay_every xs ->
  respects fit -> keeps_ints (p2_method p) (p2_dims p) -> 1 <= p2_mu p (p2_npop p) ->
  p2_evolute expf cosf pwf m fit p attr ngen replay_every drs xs = Some r ->
  forall i pop, nth_error (pq_pops r) i = Some pop -> forall z, In z (de_offered p xs (pq_pops r) i) ->
    exists x v, In (x, v) (de_part p pop) /\ as_good m (fit x) (fit z).
Proof. exact (fun RD => p2_elite expf cosf pwf m fit p ngen replay_every xs attr drs RD r). Qed.
Print Assumptions C68_de.

(** C68: the default memory (memory_size=None) holds 3*NPOP*replays + 1 samples; while that
    accommodates the warm-up samples and all survivors, the result is the best of all samples. *)
Theorem C68_default expf cosf pwf m fit p ngen replay_every xs attr drs r : p2_ready p ngen replay_every xs ->
  respects fit -> no_sharing_trouble p -> attr = None -> p2_evolute expf cosf pwf m fit p attr ngen replay_every drs xs = Some r ->
  1 <= p2_mu p (p2_nwolves p) -> 1 <= p2_mu p (p2_npop p) -> 1 <= p2_mu p (p2_nwhales p) ->
  length xs + ngen / replay_every * survivors p <= 3 * (ngen / replay_every) * p2_npop p + 1 ->
  never_worse m (pq_hist r) /\ (forall z, In z (offered xs (pq_pops r) (ngen / replay_every)) -> as_good m (pq_y r) (fit z)).
Proof. exact (fun RD => p2_default expf cosf pwf m fit p ngen replay_every xs attr drs RD r). Qed.
Print Assumptions C68_default.
Example C68_default_case : let p := q_par NearestInt 4 5 5 (2#5) false in length q_xs + 4 / 2 * survivors p <= 3 * (4 / 2) * p2_npop p + 1 /\ 1 <= p2_mu p 5.
Proof. exact default_case. Qed.
Example C68_de_case : keeps_ints (p2_method (q_par NearestInt 4 5 5 (2#5) false)) (p2_dims (q_par NearestInt 4 5 5 (2#5) false)).
Proof. exact elite_case. Qed.

Example C68_case : p2_ready (q_par NearestInt 4 5 5 (2#5) false) 4 2 q_xs /\ respects id_fit /\ no_sharing_trouble (q_par NearestInt 4 5 5 (2#5) false) /\
  nothing_dropped (q_par NearestInt 4 5 5 (2#5) false) (p2_size None (4 / 2 * 5)) (length q_xs) (4 / 2).
Proof. exact q_ok. Qed.
Example C68_run : brief (p2_evolute z1 z1 z2 Mmax id_fit (q_par NearestInt 4 5 5 (2#5) false) None 4 2 (q_draw false) q_xs)
  = Some ([4], 4, [4; 4], Some 8%nat)%Q.
Proof. exact q_run. Qed.

(** C69: without separate processes and with integer variables under 'minmax' (or 'sigmoid'), DE
    rounds lists in place that the replay memory also holds: the returned value need not be the
    fitness of the returned point. *)
Theorem C69_sharing_refuted : exists p xs drs r, p2_ready p 2 1 xs /\ respects id_fit /\
  p2_evolute z1 z1 z2 Mmax id_fit p None 2 1 drs xs = Some r /\ ~ (pq_y r == id_fit (pq_x r))%Q.
Proof. exact w_shared. Qed.
Print Assumptions C69_sharing_refuted.

(** C69: the grey wolves are idle by default: when there are more than NPOP/2 wolves and
    replay_every is 1, every wolf reported in a replay is a point the memory had been offered
    before; GWO contributes no new point. *)
Theorem C69_idle_wolves expf cosf pwf m fit p ngen xs attr drs r : p2_ready p ngen 1 xs ->
  respects fit -> no_sharing_trouble p -> p2_npop p < 2 * p2_nwolves p ->
  p2_evolute expf cosf pwf m fit p attr ngen 1 drs xs = Some r ->
  forall i pop, nth_error (pq_pops r) i = Some pop ->
    forall x v, In (x, v) (firstn (p2_nwolves p) pop) -> point_in x (offered xs (pq_pops r) i).
Proof. exact (p2_idle expf cosf pwf m fit p ngen xs attr drs r). Qed.
Print Assumptions C69_idle_wolves.
Example C69_idle_case : p2_ready (q_par NearestInt 4 5 5 (2#5) false) 2 1 q_xs /\ 5 < 2 * 5.
Proof. exact w_idle. Qed.

(** C69: a memory that runs full overwrites its best sample: the returned value can be worse than
    a warm-up sample and worse than earlier entries of the history. *)
Theorem C69_memory_refuted : exists p xs drs r z, p2_ready p 4 1 xs /\ respects (hit_fit 3) /\ no_sharing_trouble p /\
  p2_evolute z1 z1 z2 Mmax (hit_fit 3) p (Some 5) 4 1 drs xs = Some r /\
  In z xs /\ (pq_y r < hit_fit 3 z)%Q /\ ~ never_worse Mmax (pq_hist r).
Proof. exact w_small. Qed.
Print Assumptions C69_memory_refuted.

(** C69: the default memory (memory_size=None), documented to accommodate all samples, can be too
    small for the warm-up samples alone: the best of them is lost. *)
Theorem C69_default_refuted : exists p xs drs r z, p2_ready p 2 1 xs /\ respects (hit_fit 0) /\ no_sharing_trouble p /\
  p2_size None (2 / 1 * p2_npop p) < length xs /\
  p2_evolute z1 z1 z2 Mmax (hit_fit 0) p None 2 1 drs xs = Some r /\ In z xs /\ (pq_y r < hit_fit 0 z)%Q.
Proof. exact w_default. Qed.
Print Assumptions C69_default_refuted.

(** C69: a second call of evolute inherits as memory size the number of samples the first one had
    stored; the same call on a fresh object finds the optimum, the second call loses it. *)
Theorem C69_second_refuted : exists p xs1 xs2 drs a b c, p2_ready p 2 1 xs1 /\ p2_ready p 4 1 xs2 /\ respects (hit_fit 3) /\ no_sharing_trouble p /\
  p2_twice z1 z1 z2 Mmax (hit_fit 3) p None 2 1 drs xs1 4 1 drs xs2 = Some (a, b) /\
  p2_evolute z1 z1 z2 Mmax (hit_fit 3) p None 4 1 drs xs2 = Some c /\ (pq_y b < pq_y c)%Q /\ ~ never_worse Mmax (pq_hist b).
Proof. exact w_second. Qed.
Print Assumptions C69_second_refuted.

(** C69: the result is not the best evaluated point: points evaluated between two replays are not
    offered to the memory. *)
Theorem C69_lost_refuted : exists p xs drs r z, p2_ready p 2 1 xs /\ respects (hit_fit 4) /\ no_sharing_trouble p /\
  nothing_dropped p (p2_size None (2 / 1 * p2_npop p)) (length xs) (2 / 1) /\
  p2_evolute z1 z1 z2 Mmax (hit_fit 4) p None 2 1 drs xs = Some r /\ In z (pq_seen r) /\ (pq_y r < hit_fit 4 z)%Q.
Proof. exact w_lost. Qed.
Print Assumptions C69_lost_refuted.

(** C69: with replay_every larger than ngen no replay takes place and the call raises. *)
Theorem C69_no_replay_raises expf cosf pwf m fit p ngen replay_every xs attr drs : ngen < replay_every ->
  p2_evolute expf cosf pwf m fit p attr ngen replay_every drs xs = None.
Proof. exact (p2_no_replay expf cosf pwf m fit p ngen replay_every xs attr drs). Qed.
Print Assumptions C69_no_replay_raises.
