(** Property theorems C16 (recombination), C17 (offspring stay in the space) and C18 (what ES
    reports). *)
From Coq Require Import List Arith ZArith QArith Bool Lia Lqa.
From Verif Require Import Base BaseFacts Space_Model Space_Spec Opt_Model Opt_Spec ES_Model ES_Spec ES_Proofs.
Import ListNotations.
Open Scope nat_scope.

(** C16: two-point crossover exchanges one non-empty segment [p, q) with 1 <= p, the same one
    in the genes and in the strategies, and touches nothing else. *)
Theorem C16_two_point {A B} r1 r2 (i1 i2 : list A) (s1 s2 : list B) n : 2 <= n ->
  length i1 = n -> length i2 = n -> length s1 = n -> length s2 = n ->
  exists p q c1 c2 t1 t2, cxES2point r1 r2 i1 i2 s1 s2 = Some (c1, c2, t1, t2) /\
    1 <= p /\ p < q /\ q <= n /\ exchanged p q i1 i2 c1 c2 /\ exchanged p q s1 s2 t1 t2.
Proof. exact (two_point r1 r2 i1 i2 s1 s2 n). Qed.
Print Assumptions C16_two_point.

(** C16: every such segment can be drawn. *)
Theorem C16_two_point_reach {A B} (i1 i2 : list A) (s1 s2 : list B) n p q : 1 <= p -> p < q -> q <= n ->
  length i1 = n -> length i2 = n -> length s1 = n -> length s2 = n ->
  exists r1 r2 c1 c2 t1 t2, cxES2point r1 r2 i1 i2 s1 s2 = Some (c1, c2, t1, t2) /\
    exchanged p q i1 i2 c1 c2 /\ exchanged p q s1 s2 t1 t2.
Proof. exact (two_point_reach i1 i2 s1 s2 n p q). Qed.
Print Assumptions C16_two_point_reach.

(** C16: with one variable it raises, whatever the draws. *)
Theorem C16_one_variable_fails {A B} r1 r2 (i1 i2 : list A) (s1 s2 : list B) : length i1 < 2 ->
  cxES2point r1 r2 i1 i2 s1 s2 = None.
Proof. exact (two_point_short r1 r2 i1 i2 s1 s2). Qed.
Print Assumptions C16_one_variable_fails.

(** C16: blend crossover keeps the length, keeps the sum of the parents at every coordinate,
    and stays in the parents' interval extended by [alpha] times its width on each side. *)
Theorem C16_blend alpha u w i1 i2 s1 s2 c1 c2 t1 t2 :
  length i1 = length i2 -> length s1 = length s2 ->
  cxESBlend alpha u w i1 i2 s1 s2 = (c1, c2, t1, t2) ->
  length c1 = length i1 /\ length c2 = length i1 /\ length t1 = length s1 /\ length t2 = length s1 /\
  (forall i x y, nth_error i1 i = Some x -> nth_error i2 i = Some y ->
     exists v z, nth_error c1 i = Some v /\ nth_error c2 i = Some z /\ (v + z == x + y)%Q /\
       ((0 <= alpha)%Q -> (0 <= u i)%Q -> (u i <= 1)%Q -> forall r, r = v \/ r = z ->
          (qlo x y - alpha * (qhi x y - qlo x y) <= r)%Q /\ (r <= qhi x y + alpha * (qhi x y - qlo x y))%Q)) /\
  (forall i x y, nth_error s1 i = Some x -> nth_error s2 i = Some y ->
     exists v z, nth_error t1 i = Some v /\ nth_error t2 i = Some z /\ (v + z == x + y)%Q /\
       ((0 <= alpha)%Q -> (0 <= w i)%Q -> (w i <= 1)%Q -> forall r, r = v \/ r = z ->
          (qlo x y - alpha * (qhi x y - qlo x y) <= r)%Q /\ (r <= qhi x y + alpha * (qhi x y - qlo x y))%Q)).
Proof. exact (blend_ok alpha u w i1 i2 s1 s2 c1 c2 t1 t2). Qed.
Print Assumptions C16_blend.

Example C16_demo : cxES2point 0 1 [1;2;3;4] [5;6;7;8] [10;20;30;40] [50;60;70;80]
  = Some ([1;6;7;4], [5;2;3;8], [10;60;70;40], [50;20;30;80]).
Proof. reflexivity. Qed.

(** C17: whatever pair it is given and whatever is drawn, a mutation that returns gives a
    point of the space with a strategy vector inside [smin, smax]. *)
Theorem C17_mutation expf tau tau' p dr ind st v s : wf_dims (p_dims p) -> (p_smin p < p_smax p)%Q ->
  mutES expf tau tau' p dr ind st = Some (v, s) -> good_pair p (v, s).
Proof. exact (mutES_ok expf tau tau' p dr ind st v s). Qed.
Print Assumptions C17_mutation.

(** C17: mutation of a well-formed pair never raises. *)
Theorem C17_mutation_total expf tau tau' p dr ind st : (forall q, 0 < expf q)%Q -> wf_dims (p_dims p) ->
  (0 < p_smin p)%Q -> (p_smin p < p_smax p)%Q -> (p_smax p <= 1)%Q ->
  length ind = length (p_dims p) -> length st = length (p_dims p) -> strat_ok (p_smin p) (p_smax p) st ->
  exists v s, mutES expf tau tau' p dr ind st = Some (v, s).
Proof. exact (mutES_total expf tau tau' p dr ind st). Qed.
Print Assumptions C17_mutation_total.

(** C17: one reproduction round produces [lambda_] offspring, all of them points of the space
    with strategies inside [smin, smax]. *)
Theorem C17_offspring expf tau tau' p drs pop os : wf_dims (p_dims p) -> (p_smin p < p_smax p)%Q ->
  (p_clip p = true \/ p_blend p = false) ->
  Forall (fun m => good_pair p (m_ind m, m_strat m)) pop ->
  GenOffspring expf tau tau' p drs pop = Some os ->
  length os = p_lambda p /\ Forall (good_pair p) os.
Proof. exact (offspring_ok expf tau tau' p drs pop os). Qed.
Print Assumptions C17_offspring.

(** C17: in a whole run started from points of the space the fitness function is called on
    points of the space only, [ngen * lambda_] times after initialisation, and the returned
    point is one of the space. *)
Theorem C17_run expf tau tau' m fit p drs init ngen r : wf_dims (p_dims p) -> (p_smin p < p_smax p)%Q ->
  (p_clip p = true \/ p_blend p = false) -> Forall (good_pair p) init ->
  evolute expf tau tau' m fit p drs init ngen = Some r ->
  Forall (feasible (p_dims p)) (r_seen r) /\ feasible (p_dims p) (r_x r) /\ length (r_seen r) = ngen * p_lambda p.
Proof. exact (evolute_feasible expf tau tau' m fit p drs init ngen r). Qed.
Print Assumptions C17_run.

(** C17: such a run never raises. *)
Theorem C17_run_total expf tau tau' m fit p drs init ngen : (forall q, 0 < expf q)%Q -> wf_dims (p_dims p) ->
  (0 < p_smin p)%Q -> (p_smin p < p_smax p)%Q -> (p_smax p <= 1)%Q ->
  (p_clip p = true \/ p_blend p = false) -> (p_blend p = true \/ 2 <= length (p_dims p)) ->
  2 <= p_mu p -> p_mu p <= p_lambda p -> length init = p_lambda p -> Forall (good_pair p) init -> 1 <= ngen ->
  exists r, evolute expf tau tau' m fit p drs init ngen = Some r.
Proof. exact (evolute_total expf tau tau' m fit p drs init ngen). Qed.
Print Assumptions C17_run_total.

(** C18: the returned pair is the best of all evaluated offspring; the running best has one
    entry per generation, is the best of the per-generation bests so far, never gets worse and
    ends with the returned value. *)
Theorem C18_best_of_offspring expf tau tau' m fit p drs init ngen r :
  evolute expf tau tau' m fit p drs init ngen = Some r ->
  best_of m fit (r_seen r) (r_x r) (r_y r) /\
  length (r_local r) = ngen /\ length (r_global r) = ngen /\
  never_worse m (r_global r) /\
  (forall i v, nth_error (r_global r) i = Some v ->
     (forall x, In x (firstn (S i) (r_local r)) -> as_good m v x) /\ In v (firstn (S i) (r_local r))) /\
  (forall v, nth_error (r_global r) (ngen - 1) = Some v -> (v == r_y r)%Q).
Proof. exact (evolute_best expf tau tau' m fit p drs init ngen r). Qed.
Print Assumptions C18_best_of_offspring.

(** C18: the initial population (which contains x0) was evaluated but is not considered: a run
    can return a value worse than that of an initial point. *)
Theorem C18_initial_ignored_refuted expf tau tau' : exists p drs init ngen r x0,
  wf_dims (p_dims p) /\ Forall (good_pair p) init /\ length init = p_lambda p /\ p_mu p <= p_lambda p /\
  evolute expf tau tau' Mmax wit_fit p drs init ngen = Some r /\
  In x0 (r_init r) /\ (r_y r < wit_fit x0)%Q.
Proof. exact (initial_ignored expf tau tau'). Qed.
Print Assumptions C18_initial_ignored_refuted.

(** A concrete run with crossover, mutation and reproduction on a mixed space meeting the
    hypotheses above (with a rational stand-in for exp). *)
Example C17_demo : forall r,
  evolute (fun q => 1 + q * q)%Q (fun _ => 1%Q) (fun _ => 1#2)%Q Mmin (fun x => nth 0 x 0 + nth 1 x 0)%Q
    demo_par (fun _ => demo_draws) demo_init 2 = Some r ->
  length (r_seen r) = 6 /\ Forall (feasible (p_dims demo_par)) (r_seen r).
Proof. exact demo_run. Qed.
Example C17_demo_runs : exists r,
  evolute (fun q => 1 + q * q)%Q (fun _ => 1%Q) (fun _ => 1#2)%Q Mmin (fun x => nth 0 x 0 + nth 1 x 0)%Q
    demo_par (fun _ => demo_draws) demo_init 2 = Some r.
Proof. exact demo_run_exists. Qed.
