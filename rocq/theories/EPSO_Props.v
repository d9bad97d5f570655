(** C62 and C63 about EPSO. *)
From Coq Require Import List Arith ZArith QArith Bool.
From Verif Require Import Base Space_Model Space_Spec Opt_Model Opt_Spec Pop_Model Pop_Spec Swarm_Model Swarm_Demo
  HCLPSO_Model HCLPSO_Spec HCLPSO_Demo EPSO_Model EPSO_Spec EPSO_Proofs EPSO_Rates EPSO_Total EPSO_Demo.
Import ListNotations.
Open Scope nat_scope.

(** C62: EPSO.evolute evaluates n*(ngen+1) points, all feasible, returns the best of them and its value; both
    histories are exact, and the returned population is the last one evaluated, with its values. *)
Theorem C62_report expf m fit ds mt : wf_dims ds -> discrete_ok mt ds -> forall g1 g2 par lp ngen x0 di drs r, 1 <= g1 + g2 ->
  (forall l, x0 = Some l -> Forall (fun x => length x = length ds) l) ->
  ep_evolute expf m fit ds mt g1 g2 par lp ngen x0 di drs = Some r ->
  report m fit ds (g1 + g2) 2 ngen (firstn (g1 + g2) (epr_log r)) (epr_log r) (epr_x r) (epr_y r) (epr_hg r) (epr_pop r) (epr_pf r) /\
  length (epr_hl r) = ngen /\ local_exact m fit (g1 + g2) 2 (epr_log r) (epr_hl r).
Proof. exact (ep_report expf m fit ds mt). Qed.
Print Assumptions C62_report.

(** C62: a feasible start of the user is what is evaluated first. *)
Theorem C62_start expf m fit ds mt : wf_dims ds -> discrete_ok mt ds -> forall g1 g2 par lp ngen x0 di drs r, 1 <= g1 + g2 ->
  (forall l, x0 = Some l -> Forall (fun x => length x = length ds) l) ->
  ep_evolute expf m fit ds mt g1 g2 par lp ngen x0 di drs = Some r -> keeps_ints mt ds ->
  forall l, x0 = Some l -> l <> [] -> Forall (feasible ds) l -> Forall2 (Forall2 Qeq) l (firstn (g1 + g2) (epr_log r)).
Proof. exact (ep_first expf m fit ds mt). Qed.
Print Assumptions C62_start.

(** C62: with at least three particles, one of them in the second group, a run does not raise. *)
Theorem C62_total expf m fit ds mt : wf_dims ds -> discrete_ok mt ds -> forall g1 g2, 1 <= g2 -> forall par lp ngen x0 di drs,
  3 <= g1 + g2 -> ngen <> 0 -> lp <> 0 -> (forall l, x0 = Some l -> l <> [] -> length l = g1 + g2) ->
  (forall l, x0 = Some l -> Forall (fun x => length x = length ds) l) -> (forall i, unit_f (ei_f (di i))) ->
  (forall k i, unit_f (ed_f (drs k i)) /\ (0 <= ed_prob (drs k i))%Q /\ (ed_prob (drs k i) < 1)%Q) ->
  exists r, ep_evolute expf m fit ds mt g1 g2 par lp ngen x0 di drs = Some r.
Proof. exact (ep_total expf m fit ds mt). Qed.
Print Assumptions C62_total.

(** C62: without a second group (g2 = 0) every run raises in its first generation. *)
Theorem C62_one_group_raises expf m fit ds mt g1 par lp ngen x0 di drs : ngen <> 0 ->
  ep_evolute expf m fit ds mt g1 0 par lp ngen x0 di drs = None.
Proof. exact (one_group expf m fit ds mt g1 par lp ngen x0 di drs). Qed.
Print Assumptions C62_one_group_raises.

(** C62_total fails for two particles: a draw that names the fourth strategy raises. *)
Theorem C62_two_refuted : wf_dims dm_ds /\
  (forall k i, unit_f (ed_f (ep_dr3 k i)) /\ (0 <= ed_prob (ep_dr3 k i))%Q /\ (ed_prob (ep_dr3 k i) < 1)%Q) /\
  forall lp, ep_evolute line Mmin dm_fit dm_ds NearestInt 1 1 false lp 3 None ep_di ep_dr3 = None.
Proof. exact (conj (proj1 dm_ok) ep_two). Qed.
Print Assumptions C62_two_refuted.

(** C63: after any number of generations, each particle's memory is the best point that particle has
    visited, the attractor is the best point any particle has visited (although the code lets it
    share memory with a particle), velocities stay within half the ranges and positions in the space. *)
Theorem C63_memories expf m fit ds mt : wf_dims ds -> discrete_ok mt ds -> forall g1 g2 par lp ngen x0 di drs s0 k st, 1 <= g1 + g2 ->
  (forall l, x0 = Some l -> Forall (fun x => length x = length ds) l) ->
  (forall i j, (0 <= ei_vel (di i) j)%Q /\ (ei_vel (di i) j <= 1)%Q) ->
  ep_start expf m fit ds mt g1 g2 par x0 di = Some s0 -> gens (ep_gen expf m fit ds mt g1 g2 par lp ngen drs) 0 k s0 = Some st ->
  length (ep_log st) = (g1 + g2) * (k + 1) /\ length (ep_sw st) = g1 + g2 /\
  (forall i p, nth_error (ep_sw st) i = Some p -> personal_best m fit (g1 + g2) i (ep_log st) (q_px p) (q_pv p) /\ half_slow ds (q_v p) /\ feasible ds (q_x p)) /\
  exists gx, ep_gx (ep_sw st) (ep_ref st) = Some gx /\ best_of m fit (ep_log st) gx (as_min m (ep_gv st)).
Proof. exact (ep_memory expf m fit ds mt). Qed.
Print Assumptions C63_memories.

(** C63: the probabilities of a generation are 1/5 each until a learning period has ended at a
    generation >= 2; then they are the shares of the strategies' success rates (plus 1/100) over the period that
    ended last, generation 0 left out.  They add up to 1 and none is below 1/505.  In a
    generation the particles of the second group (all particles in the last tenth of the run) use one strategy each,
    the one whose interval holds their draw; it counts as a success exactly when the
    particle's new value is better than all its earlier ones. *)
Theorem C63_rates expf m fit ds mt : wf_dims ds -> discrete_ok mt ds -> forall g1 g2, 1 <= g2 -> forall par lp ngen x0 di drs r,
  (forall l, x0 = Some l -> Forall (fun x => length x = length ds) l) ->
  ep_evolute expf m fit ds mt g1 g2 par lp ngen x0 di drs = Some r ->
  length (epr_rates r) = ngen /\ length (epr_evs r) = ngen /\
  forall k row evs, nth_error (epr_rates r) k = Some row -> nth_error (epr_evs r) k = Some evs ->
  (length row = 5 /\
   (forall s, s < 5 -> (nth s row 0 == if 2 <=? period_end lp k then share s (during (max 1 (period_end lp k - lp)) (period_end lp k) (epr_evs r)) else (1#5))%Q) /\
   (forall s, s < 5 -> (1#505 <= nth s row 0)%Q) /\ (upto 5 row == 1)%Q) /\
  (map (fun e => fst (fst e)) evs = (if par || (10 * (k + 1) <=? 9 * (ngen + 1)) then seq g1 g2 else seq 0 (g1 + g2))) /\
  forall i s b, In (i, s, b) evs -> s < 5 /\ (upto s row <= ed_prob (drs k i))%Q /\ (ed_prob (drs k i) < upto (S s) row)%Q /\
     (b = true <-> improves m fit (g1 + g2) (epr_log r) k i).
Proof. exact (ep_rates_ok expf m fit ds mt). Qed.
Print Assumptions C63_rates.

(** C63: the learning probabilities rise from 0 (first particle) to 1/2 (last). *)
Theorem C63_probabilities expf g1 g2 : 2 <= g1 + g2 -> (forall a b, (a < b)%Q -> (expf a < expf b)%Q) -> (forall a b, (a == b)%Q -> (expf a == expf b)%Q) ->
  (ep_pc expf g1 g2 0 == 0)%Q /\ (ep_pc expf g1 g2 (g1 + g2 - 1) == 1#2)%Q /\
  forall i j, i <= j -> (ep_pc expf g1 g2 i <= ep_pc expf g1 g2 j)%Q.
Proof. exact (ep_pc_spec expf g1 g2). Qed.
Print Assumptions C63_probabilities.

(** C63 fails with several cores: the counter of evaluations stays at 0, so the second phase (all
    particles use the strategies) is never reached, in no generation of any run. *)
Theorem C63_cores_refuted expf m fit ds mt : wf_dims ds -> discrete_ok mt ds -> forall g1 g2, 1 <= g2 -> forall lp ngen x0 di drs r,
  (forall l, x0 = Some l -> Forall (fun x => length x = length ds) l) ->
  ep_evolute expf m fit ds mt g1 g2 true lp ngen x0 di drs = Some r ->
  forall k evs, nth_error (epr_evs r) k = Some evs -> map (fun e => fst (fst e)) evs = seq g1 g2.
Proof. exact (ep_cores expf m fit ds mt). Qed.
Print Assumptions C63_cores_refuted.

(** C63 fails for the count of generations without improvement: in the second group it grows at every
    evaluation, also at one that improves on the memory. *)
Theorem C63_stagnation_refuted m fit ds u i s u' : ep_upd2 m fit ds u i s = Some u' ->
  exists p p', nth_error (eu_sw u) i = Some p /\ nth_error (eu_sw u') i = Some p' /\ q_sl p' = S (q_sl p).
Proof. exact (slope_grows m fit ds u i s u'). Qed.
Print Assumptions C63_stagnation_refuted.

(** The hypotheses are met by runs on the mixed problem of Swarm_Demo.v. *)
Example C62_demo : (forall i, unit_f (ei_f (ep_di i))) /\
  (forall k i, unit_f (ed_f (ep_dr k i)) /\ (0 <= ed_prob (ep_dr k i))%Q /\ (ed_prob (ep_dr k i) < 1)%Q) /\
  (forall i j, (0 <= ei_vel (ep_di i) j)%Q /\ (ei_vel (ep_di i) j <= 1)%Q).
Proof. exact ep_draws. Qed.
Example C63_demo : ep_look 2 2 4 ep_dr = Some (20,
  [[(2, 1, false); (3, 4, true)]; [(2, 3, true); (3, 1, false)]; [(2, 0, false); (3, 3, false)]; [(2, 3, false); (3, 0, true)]],
  [[1 # 5; 1 # 5; 1 # 5; 1 # 5; 1 # 5]; [1 # 5; 1 # 5; 1 # 5; 1 # 5; 1 # 5];
   [1 # 105; 1 # 105; 1 # 105; 101 # 105; 1 # 105]; [1 # 105; 1 # 105; 1 # 105; 101 # 105; 1 # 105]]%Q).
Proof. exact ep_run. Qed.
Example C63_demo_last : exists a b c, ep_look 2 2 10 ep_dr0 = Some (a, b, c) /\ nth_error b 8 = Some [(2, 0, false); (3, 0, false)] /\
  nth_error b 9 = Some [(0, 0, false); (1, 0, false); (2, 0, false); (3, 0, false)].
Proof. exact ep_last. Qed.
Example C63_demo_stuck : exists u', ep_upd2 Mmin dm_fit dm_ds (EUst [Part [1; 0] [0; 0] [2; 0] 1 5 []]%Q (Grow 0) 1%Q [0;0;0;0;0] [0;0;0;0;0] []) 0 4 = Some u' /\
  eu_succ u' = [0;0;0;0;1] /\ map q_sl (eu_sw u') = [6].
Proof. exact ep_stuck. Qed.
