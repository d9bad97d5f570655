(** C34, C55: ensemble of differential evolution variants. *)
From Coq Require Import List Arith ZArith QArith Bool Permutation.
From Verif Require Import Base Space_Model Space_Spec Opt_Model Opt_Spec Pop_Model Pop_Spec EDEV_Model EDEV_Spec EDEV_Top EDEV_Donors EDEV_Total EDEV_Pools EDEV_Demo.
Import ListNotations.
Open Scope nat_scope.

(** At every generation the three sub-populations partition the individuals. *)
Theorem C34_partition : forall expf m fit ds mt, wf_dims ds -> discrete_ok mt ds -> forall lambda npop ngen ng sd dr init r,
  start_draws_ok npop sd -> (forall k, draws_ok npop (dr k)) -> Forall (fun v => length v = length ds) init ->
  ed_evolute expf m fit ds mt lambda npop ngen ng sd dr init = Some r ->
  exists s, slice_index lambda npop = Some s /\ 7 <= s /\ length (er_trace r) = ngen /\
    Forall (fun t => partition npop s (fst (fst t))) (er_trace r).
Proof. exact ed_partition. Qed.
Print Assumptions C34_partition.

(** The population always consists of [npop] points of the space with their own values; from one
    generation to the next no slot gets worse; the returned population is the last one. *)
Theorem C34_slots : forall expf m fit ds mt, wf_dims ds -> discrete_ok mt ds -> forall lambda npop ngen ng sd dr init r,
  start_draws_ok npop sd -> (forall k, draws_ok npop (dr k)) -> Forall (fun v => length v = length ds) init ->
  ed_evolute expf m fit ds mt lambda npop ngen ng sd dr init = Some r ->
  slots_ok m fit ds npop (fst (er_start r)) (snd (er_start r)) /\
  Forall (fun t => slots_ok m fit ds npop (snd (fst t)) (snd t)) (er_trace r) /\
  chain (no_slot_worse m fit) (fst (er_start r)) (map (fun t => snd (fst t)) (er_trace r)) /\
  er_pop r = last (map (fun t => snd (fst t)) (er_trace r)) (fst (er_start r)) /\
  Forall2 (fun x v => (v == fit x)%Q) (er_pop r) (er_fits r).
Proof. exact ed_slots. Qed.
Print Assumptions C34_slots.

(** The returned pair is the best of all evaluations of the initial population and of the
    generations, and every evaluated point is in the space. *)
Theorem C34_best : forall expf m fit ds mt, wf_dims ds -> discrete_ok mt ds -> forall lambda npop ngen ng sd dr init r,
  start_draws_ok npop sd -> (forall k, draws_ok npop (dr k)) -> Forall (fun v => length v = length ds) init ->
  ed_evolute expf m fit ds mt lambda npop ngen ng sd dr init = Some r ->
  best_of m fit (er_log r) (er_x r) (er_y r) /\ Forall (feasible ds) (er_log r ++ er_again r) /\
  (exists rest, er_log r = fst (er_start r) ++ rest) /\ feasible ds (er_x r).
Proof. exact ed_best. Qed.
Print Assumptions C34_best.
(** It is the best of all evaluations, the repeated ones of the start included, when the integer
    transformation keeps integers ... *)
Theorem C34_best_all : forall expf m fit ds mt, wf_dims ds -> discrete_ok mt ds -> forall lambda npop ngen ng sd dr init r,
  start_draws_ok npop sd -> (forall k, draws_ok npop (dr k)) -> Forall (fun v => length v = length ds) init ->
  ed_evolute expf m fit ds mt lambda npop ngen ng sd dr init = Some r ->
  keeps_ints mt ds -> respects fit -> best_of m fit (er_log r ++ er_again r) (er_x r) (er_y r).
Proof. exact ed_best_all. Qed.
Print Assumptions C34_best_all.
(** ... but not with a transformation that perturbs them: the third sub-population is perturbed
    and evaluated again, and what it finds is not recorded. *)
Theorem C34_again_refuted : exists expf fit ds lambda npop ngen ng sd dr init r z,
  wf_dims ds /\ discrete_ok Sigmoid ds /\ start_draws_ok npop sd /\ (forall k, draws_ok npop (dr k)) /\
  Forall (fun v => length v = length ds) init /\
  ed_evolute expf Mmin fit ds Sigmoid lambda npop ngen ng sd dr init = Some r /\ In z (er_again r) /\ (fit z < er_y r)%Q.
Proof.
  destruct run2_misses as (r & E & I & L). exists (fun _ => 1%Q), fit2, ds2, (1 # 3)%Q, 21, 2, 1, (sd0 vd2 vd2'), dr2, init2, r, [1; 5]%Q.
  split; [exact wf2|]. split; [exact disc2|]. split; [apply sd0_ok|]. split; [exact dr2_ok|]. split; [exact rows2|].
  split; [exact E|]. exact (conj I L).
Qed.
Print Assumptions C34_again_refuted.

(** The histories: each entry has the best value of the population and of each sub-population at
    the end of its generation; the first never gets worse and ends at the returned value. *)
Theorem C34_history : forall expf m fit ds mt, wf_dims ds -> discrete_ok mt ds -> forall lambda npop ngen ng sd dr init r,
  start_draws_ok npop sd -> (forall k, draws_ok npop (dr k)) -> Forall (fun v => length v = length ds) init ->
  ed_evolute expf m fit ds mt lambda npop ngen ng sd dr init = Some r ->
  length (er_hist r) = ngen /\ Forall2 (entry_ok m fit npop) (er_trace r) (er_hist r) /\
  never_worse m (map (fun h : Q * Q * Q * Q => fst (fst (fst h))) (er_hist r)) /\
  exists h, nth_error (er_hist r) (ngen - 1) = Some h /\ fst (fst (fst h)) = er_y r.
Proof. exact ed_history. Qed.
Print Assumptions C34_history.

(** The number of evaluations. *)
Theorem C34_count : forall expf m fit ds mt, wf_dims ds -> discrete_ok mt ds -> forall lambda npop ngen ng sd dr init r,
  start_draws_ok npop sd -> (forall k, draws_ok npop (dr k)) -> Forall (fun v => length v = length ds) init ->
  ed_evolute expf m fit ds mt lambda npop ngen ng sd dr init = Some r ->
  exists s, slice_index lambda npop = Some s /\ length (er_log r) = npop + evaluations (er_trace r) /\ length (er_again r) = s.
Proof. exact ed_count. Qed.
Print Assumptions C34_count.

(** A run with at least seven individuals in every sub-population never raises, unless a donor
    search of JADE fails a thousand times. *)
Theorem C34_total : forall expf m fit ds mt, wf_dims ds -> discrete_ok mt ds -> forall lambda npop ngen ng sd dr init s,
  start_draws_ok npop sd -> (forall k, draws_ok npop (dr k)) -> slice_index lambda npop = Some s -> 7 <= npop - 2 * s ->
  (forall k, enough_draws npop s (dr k)) -> 0 < ng < ngen -> length init = npop -> Forall (fun v => length v = length ds) init ->
  exists r, ed_evolute expf m fit ds mt lambda npop ngen ng sd dr init = Some r.
Proof. exact ed_total. Qed.
Print Assumptions C34_total.
Example C34_case : exists r, run1 = Some r /\ start_draws_ok 21 (sd0 vd1 vd1) /\ (forall k, draws_ok 21 (dr0 vd1 k)) /\
  (forall k, enough_draws 21 7 (dr0 vd1 k)) /\ slice_index (1 # 3) 21 = Some 7 /\
  length (er_log r) = 21 + 35 + 35 /\ (er_y r < fit1 (nth 10 init1 []))%Q /\ wf_dims ds1 /\ discrete_ok NearestInt ds1.
Proof.
  destruct run1_result as (r & E & L & B & _). exists r.
  split; [exact E|]. split; [apply sd0_ok|]. split; [apply dr0_ok|]. split; [apply dr0_enough|]. split; [exact slice1|].
  split; [exact L|]. split; [exact B|]. exact (conj wf1 disc1).
Qed.

(** The donors of JADE: for every individual the base donor is another individual of the
    sub-population, and the second donor a third one or an archived one; individual 0 is never
    one. *)
Theorem C55_jade_donors : forall n all d1 d2 r1 r2, 2 <= n -> n <= all ->
  gnR1R2 n (n - 1) (all - 1) d1 d2 = Some (r1, r2) -> jade_donors_ok n all r1 r2.
Proof. exact jade_donors. Qed.
Print Assumptions C55_jade_donors.
Example C55_jade_case : exists r1 r2, gnR1R2 7 6 9 (j_r1 (jd0 vd1)) (j_r2 (jd0 vd1)) = Some (r1, r2).
Proof. eexists. eexists. vm_compute. reflexivity. Qed.

(** The donors of CoDE: distinct, other than the individual, and never the first other one. *)
Theorem C55_code_donors : forall n i draws ix, i < n -> donors (remove_at (seq 0 n) i) (n - 2) draws = Some ix ->
  length ix = length draws /\ NoDup ix /\ Forall (fun k => k < n /\ k <> i /\ k <> (if i =? 0 then 1 else 0)) ix.
Proof. exact code_donors. Qed.
Print Assumptions C55_code_donors.
Theorem C55_code_total : forall n i draws, i < n -> length draws <= n - 2 ->
  exists ix, donors (remove_at (seq 0 n) i) (n - 2) draws = Some ix.
Proof. exact code_donors_total. Qed.
Print Assumptions C55_code_total.

(** The archive: at most [cap] entries, no position twice, only archived and replaced
    individuals, and all of them while there is room. *)
Theorem C55_archive : forall cap perm arch new, (forall n, Permutation (perm n) (seq 0 n)) ->
  exists arch', update_archive cap perm arch new = Some arch' /\
    length arch' <= cap /\ distinct_rows (map fst arch') /\ incl arch' (arch ++ new) /\
    (length (arch ++ new) <= cap -> forall e, In e (arch ++ new) -> exists f, In f arch' /\ Forall2 Qeq (fst e) (fst f)).
Proof. exact archive_all. Qed.
Print Assumptions C55_archive.
Example C55_archive_case : update_archive 3 (fun n => seq 0 n) [([2], 5); ([1], 4)]%Q [([1], 3); ([0], 1)]%Q = Some [([0], 1); ([1], 4); ([2], 5)]%Q.
Proof. reflexivity. Qed.

(** JADE's crossover is documented to take at least one coordinate of the mutant: it does not,
    the forced positions are computed column-major and used row-major. *)
Theorem C55_jrand_refuted : exists ds d pop vals, 2 <= length pop /\ Forall (fun x => length x = length ds) pop /\
  exists i, i < length pop /\ forall F, exists raw,
    jade_trials ds (with_F d F) [] pop vals = Some raw /\
    nth_error raw i = nth_error pop i.
Proof.
  exists ds1, jd3, pop3, [1; 10; 20; 13]%Q. split; [repeat constructor|]. split; [repeat constructor|].
  exists 3. split; [repeat constructor|]. exact no_mutant.
Qed.
Print Assumptions C55_jrand_refuted.

(** The strategies and parameters that EPSDE uses, and those it remembers for later generations
    (none at the start), are always from the documented pools. *)
Theorem C55_pools : forall d spara gen rate pp k q rr, Permutation spara [0; 1; 2] -> Forall from_pools pp ->
  ep_para d spara gen rate pp k = Some (q, rr) -> from_pools q.
Proof. exact ep_para_pools. Qed.
Print Assumptions C55_pools.
Theorem C55_pools_kept : forall expf m fit ds mt s cap ngen ng spara dr gen st st', Permutation spara [0; 1; 2] ->
  Forall from_pools (x_pp st) -> ed_gen expf m fit ds mt s cap ngen ng spara dr gen st = Some st' -> Forall from_pools (x_pp st').
Proof. exact gen_pools. Qed.
Print Assumptions C55_pools_kept.
