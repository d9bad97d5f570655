(** Theorems C72-C74 about Latin hypercube sampling, NGA and NHHO. *)
From Coq Require Import List Arith ZArith QArith Qabs Bool Lqa Permutation.
From Verif Require Import Base Space_Model Space_Spec Opt_Model Opt_Spec Pop_Spec HHO_Model SG_Model SG_Spec SG_Latin SG_NGA SG_NHHO SG_Units SG_Wit SG_Demo.
Import ListNotations.
Open Scope nat_scope.

(** C72: a Latin hypercube sample of size N has N rows, all inside the bounds, and every variable
    with a proper range has exactly one value in each of N strata of equal width. *)
Theorem C72_strata N u sh ds rows : unit_draws u -> latin N u sh ds = Some rows ->
  length rows = N /\ Forall (inside (dim_bounds ds)) rows /\
  forall c d, nth_error ds c = Some d -> (d_lo d < d_hi d)%Q -> one_per_stratum (d_lo d) (d_hi d) N c rows.
Proof.
  exact (fun U E => conj (proj1 (proj2 (proj2 (latin_rows N u sh ds rows E)))) (conj (latin_inside N u sh ds rows (unit_closed u U) E) (fun c d => latin_stratified N u sh ds rows c d U E))).
Qed.
Print Assumptions C72_strata.

(** C72: the rows are pairwise different points as soon as the first variable has a proper range. *)
Theorem C72_distinct N u sh ds rows d : unit_draws u -> latin N u sh ds = Some rows -> nth_error ds 0 = Some d -> (d_lo d < d_hi d)%Q -> distinct_rows rows.
Proof. exact (latin_distinct N u sh ds rows d). Qed.
Print Assumptions C72_distinct.

(** C72: a sample is returned for every positive size unless a lower bound exceeds its upper
    bound. *)
Theorem C72_defined N u sh ds : (exists rows, latin N u sh ds = Some rows) <-> 1 <= N /\ Forall (fun d => (d_lo d <= d_hi d)%Q) ds.
Proof.
  exact (conj (fun E => match E with ex_intro _ rows H => conj (proj1 (latin_rows N u sh ds rows H)) (proj1 (proj2 (latin_rows N u sh ds rows H))) end)
              (fun H => latin_total N u sh ds (proj1 H) (proj2 H))).
Qed.
Print Assumptions C72_defined.

(** C72: the strata of different variables can be combined in any way: for every choice of an order
    for each variable, some shuffle puts stratum number [perm c k] of variable [c] into row [k]. *)
Theorem C72_any_order N u ds perm : 1 <= N -> Forall (fun d => (d_lo d < d_hi d)%Q) ds -> unit_draws u -> (forall c : nat, Permutation (seq 0 N) (perm c)) ->
  exists sh rows, latin N u sh ds = Some rows /\
    forall k r c d j, nth_error rows k = Some r -> nth_error ds c = Some d -> nth_error (perm c) k = Some j ->
      exists x, nth_error r c = Some x /\ stratum (d_lo d) (d_hi d) N j x.
Proof. exact (latin_any_order N u ds perm). Qed.
Print Assumptions C72_any_order.

(** C72: the initial hawks and warm-up samples of NHHO are points of the space (integer variables
    integral), and keep the stratification in the float variables. *)
Theorem C72_hawks N dr ds rows : wf_dims ds -> unit_draws (lh_u dr) -> hawk_sample N dr ds = Some rows ->
  length rows = N /\ Forall (feasible ds) rows /\
  forall c d, nth_error ds c = Some d -> d_int d = false -> (d_lo d < d_hi d)%Q -> one_per_stratum (d_lo d) (d_hi d) N c rows.
Proof.
  exact (fun W U E => conj (proj1 (hawk_sample_ok N dr ds rows W (unit_closed _ U) E)) (conj (proj2 (hawk_sample_ok N dr ds rows W (unit_closed _ U) E))
    (fun c d => hawk_sample_stratified N dr ds rows c d U E))).
Qed.
Print Assumptions C72_hawks.

(** C72: integer variables are not sampled evenly: of four samples of an integer in 0..2, exactly
    one is 0, two are 1 and one is 2, whatever the draws. *)
Theorem C72_even_refuted u sh rows : (forall i j, 0 < u i j < 1)%Q -> hawk_sample 4 (LhDraw u sh) [ {| d_int := true; d_lo := 0; d_hi := 2 |} ] = Some rows ->
  Permutation rows [[0]; [1]; [1]; [2]]%Q.
Proof. exact (uneven u sh rows). Qed.
Print Assumptions C72_even_refuted.

(** C73: NGA calls the user's function on exactly num_warmups points, a Latin hypercube inside the
    bounds, whatever the number of generations; it returns one individual and one value per
    generation.  In each generation the three models are fitted to disjoint thirds of these samples
    plus one point each of the population; the candidates lie inside the bounds, are pairwise
    different and include the population; the next population is the npop candidates with the best
    mean prediction; the individual reported has the best mean prediction of all candidates and the
    value is that prediction. *)
Theorem C73_report net train predict rt m fit ds npop nwarm h ngen lw lp sh0 drs r :
  root16 rt -> unit_draws (lh_u lw) -> unit_draws (lh_u lp) -> (forall t i j, 0 <= gm_u (nd_ga (drs t)) i j <= 1)%Q ->
  ds <> [] -> Forall (fun d => (d_lo d < d_hi d)%Q) ds ->
  nga_evolute net train predict rt m fit ds npop nwarm h ngen lw lp sh0 drs = Some r ->
  length (nr_x r) = ngen /\ length (nr_y r) = ngen /\ length (nr_trace r) = ngen /\
  (forall t s, nth_error (nr_trace r) t = Some s -> exists x y, nth_error (nr_x r) t = Some x /\ nth_error (nr_y r) t = Some y /\
     exists p0 p1 p2, ns_parts s = (p0, p1, p2) /\
       nga_generation m ds npop (nwarm / 3) (map (fun x => (x, as_min m (fit x))) (nr_evals r))
         (fun k b => predict (train (2 * t) k b)) (fun k b => predict (train (2 * t + 1) k b))
         (ns_parents s) p0 p1 p2 (ns_cands s) (ns_next s) x y) /\
  (forall s, nth_error (nr_trace r) 0 = Some s -> latin npop (lh_u lp) (lh_sh lp) ds = Some (ns_parents s)) /\
  (forall t s s', nth_error (nr_trace r) t = Some s -> nth_error (nr_trace r) (S t) = Some s' -> ns_parents s' = ns_next s) /\
  latin nwarm (lh_u lw) (lh_sh lw) ds = Some (nr_evals r) /\ length (nr_evals r) = nwarm /\ Forall (inside (dim_bounds ds)) (nr_evals r).
Proof.
  exact (fun R Uw Up Um Hne Hl H => nga_report net train predict rt m fit ds npop nwarm h R (Forall_impl _ (fun d => Qlt_le_weak _ _) Hl) ngen lw lp sh0 drs Uw Up Um r Hne Hl H).
Qed.
Print Assumptions C73_report.

(** C73: with at least two individuals, variables with proper ranges and a hidden layer of at least
    two and at most a third of the warm-up samples, NGA always returns. *)
Theorem C73_total net train predict rt m fit ds npop nwarm h ngen lw lp sh0 drs :
  root16 rt -> unit_draws (lh_u lp) -> (forall t i j, 0 <= gm_u (nd_ga (drs t)) i j <= 1)%Q ->
  ds <> [] -> Forall (fun d => (d_lo d < d_hi d)%Q) ds -> 2 <= npop -> 2 <= h -> h <= nwarm / 3 ->
  exists r, nga_evolute net train predict rt m fit ds npop nwarm h ngen lw lp sh0 drs = Some r.
Proof.
  exact (fun R Up Um Hne Hl => nga_total net train predict rt m fit ds npop nwarm h R (Forall_impl _ (fun d => Qlt_le_weak _ _) Hl) ngen lw lp sh0 drs Up Um Hne Hl).
Qed.
Print Assumptions C73_total.

(** C73: with the default hidden_shape any num_warmups of at least 12, and so the default
    num_warmups too, works. *)
Theorem C73_default net train predict rt m fit ds npop arg ngen lw lp sh0 drs :
  root16 rt -> unit_draws (lh_u lp) -> (forall t i j, 0 <= gm_u (nd_ga (drs t)) i j <= 1)%Q ->
  ds <> [] -> Forall (fun d => (d_lo d < d_hi d)%Q) ds -> 2 <= npop -> (forall w, arg = Some w -> 12 <= w) ->
  exists r, nga_evolute net train predict rt m fit ds npop (nga_warmups ds arg) (nga_hidden (nga_warmups ds arg) None) ngen lw lp sh0 drs = Some r.
Proof. exact (nga_default net train predict rt m fit ds npop arg ngen lw lp sh0 drs). Qed.
Print Assumptions C73_default.

(** C73: fewer than 12 warm-up samples with the default hidden_shape never work. *)
Theorem C73_warmups_raises net train predict rt m fit ds npop nwarm ngen lw lp sh0 drs : nwarm < 12 ->
  nga_evolute net train predict rt m fit ds npop nwarm (nga_hidden nwarm None) ngen lw lp sh0 drs = None.
Proof. exact (fun H => nga_bad_hidden net train predict rt m fit ds npop nwarm (nga_hidden nwarm None) ngen lw lp sh0 drs (or_introl (sqrt_small nwarm H))). Qed.
Print Assumptions C73_warmups_raises.

(** C73: nor does a hidden layer of one node, or of more nodes than a third of the samples. *)
Theorem C73_hidden_raises net train predict rt m fit ds npop nwarm h ngen lw lp sh0 drs : h < 2 \/ nwarm / 3 < h ->
  nga_evolute net train predict rt m fit ds npop nwarm h ngen lw lp sh0 drs = None.
Proof. exact (nga_bad_hidden net train predict rt m fit ds npop nwarm h ngen lw lp sh0 drs). Qed.
Print Assumptions C73_hidden_raises.

(** C73: a population of one raises in the first generation. *)
Theorem C73_single_raises net train predict rt m fit ds npop nwarm h ngen lw lp sh0 drs : npop < 2 -> ngen <> 0 ->
  nga_evolute net train predict rt m fit ds npop nwarm h ngen lw lp sh0 drs = None.
Proof. exact (nga_single net train predict rt m fit ds npop nwarm h ngen lw lp sh0 drs). Qed.
Print Assumptions C73_single_raises.

(** C73: integer variables are ignored: there is a run in which the user's function gets a
    fractional value for an integer variable and the individual reported has one, and the value
    reported is not the fitness of that individual. *)
Theorem C73_integers_refuted : exists train predict rt fit ds npop nwarm h ngen lw lp sh0 drs r x y z,
  root16 rt /\ unit_draws (lh_u lw) /\ (forall t i j, 0 <= gm_u (nd_ga (drs t)) i j <= 1)%Q /\ wf_dims ds /\
  nga_evolute sg_net train predict rt Mmin fit ds npop nwarm h ngen lw lp sh0 drs = Some r /\
  In z (nr_evals r) /\ ~ feasible ds z /\ nth_error (nr_x r) 0 = Some x /\ ~ feasible ds x /\ nth_error (nr_y r) 0 = Some y /\ ~ (y == fit x)%Q.
Proof. exact nga_integers. Qed.
Print Assumptions C73_integers_refuted.

(** C74: NHHO calls the user's function on the warm-up samples and then on at most two points per
    hawk and generation, all points of the space; it returns one hawk and one value per generation.
    In each generation the three models are fitted to consecutive thirds of the warm-up samples plus
    one hawk each; the hawks are points of the space (the first ones are x0 if given); the hawk
    reported has the least mean prediction, the value is that prediction, negated when
    maximising. *)
Theorem C74_report net train predict expf m fit ds mt n ts warm ngen x0 lw lp drs r :
  wf_dims ds -> discrete_ok mt ds -> (forall i j, 0 <= lh_u lw i j <= 1)%Q -> (forall i j, 0 <= lh_u lp i j <= 1)%Q -> good_hawks ds n x0 ->
  nh_evolute net train predict expf m fit ds mt n ts warm ngen x0 lw lp drs = Some r ->
  length (hx r) = ngen /\ length (hy r) = ngen /\ length (h_trace r) = ngen /\ h_warm r = match warm with Some w => w | None => n end /\
  exists samples dives, h_evals r = samples ++ dives /\ hawk_sample (match warm with Some w => w | None => n end) lw ds = Some samples /\
    length samples = match warm with Some w => w | None => n end /\ length dives <= 2 * n * ngen /\ Forall (feasible ds) (h_evals r) /\
    (forall t s, nth_error (h_trace r) t = Some s -> length (hs_hawks s) = n /\ Forall (feasible ds) (hs_hawks s) /\
       exists x y, nth_error (hx r) t = Some x /\ nth_error (hy r) t = Some y /\
       exists p0 p1 p2, hs_parts s = (p0, p1, p2) /\
         nhho_generation m (map (fun x => (x, fit x)) samples) (fun k b => predict (train 0 k b)) (fun k b => predict (train (t + 1) k b))
           (hs_hawks s) p0 p1 p2 (hs_preds s) x y) /\
    (forall s x l, x0 = Some (x :: l) -> nth_error (h_trace r) 0 = Some s -> hs_hawks s = x :: l).
Proof. exact (fun W DO Uw Up X0 => nh_report net train predict expf m fit ds mt W DO n ts warm ngen x0 lw lp drs Uw Up X0 r). Qed.
Print Assumptions C74_report.

(** C74: NHHO always returns when a third of the warm-up samples is large enough to hold out the
    test split (two samples for the default split), and never otherwise. *)
Theorem C74_total net train predict expf m fit ds mt n ts warm ngen x0 lw lp drs :
  wf_dims ds -> discrete_ok mt ds -> (forall i j, 0 <= lh_u lw i j <= 1)%Q -> (forall i j, 0 <= lh_u lp i j <= 1)%Q -> good_hawks ds n x0 -> 1 <= n ->
  (exists r, nh_evolute net train predict expf m fit ds mt n ts warm ngen x0 lw lp drs = Some r) <->
  nn_enough ts (match warm with Some w => w | None => n end / 3) = true.
Proof. exact (nh_returns net train predict expf m fit ds mt n ts warm ngen x0 lw lp drs). Qed.
Print Assumptions C74_total.
Theorem C74_default_split net train predict expf m fit ds mt n warm ngen x0 lw lp drs :
  wf_dims ds -> discrete_ok mt ds -> (forall i j, 0 <= lh_u lw i j <= 1)%Q -> (forall i j, 0 <= lh_u lp i j <= 1)%Q -> good_hawks ds n x0 -> 1 <= n ->
  (exists r, nh_evolute net train predict expf m fit ds mt n (2#10) warm ngen x0 lw lp drs = Some r) <-> 6 <= match warm with Some w => w | None => n end.
Proof. exact (nh_returns_default net train predict expf m fit ds mt n warm ngen x0 lw lp drs). Qed.
Print Assumptions C74_default_split.

(** C74: maximising, the hawk reported is the one with the smallest prediction, not the largest,
    and the value reported is the negative of its prediction. *)
Theorem C74_max_refuted : exists train predict expf fit ds mt n ts warm ngen x0 lw lp drs r s x y z fx fz,
  nh_evolute sg_net train predict expf Mmax fit ds mt n ts warm ngen x0 lw lp drs = Some r /\ nth_error (h_trace r) 0 = Some s /\
  nth_error (hx r) 0 = Some x /\ nth_error (hy r) 0 = Some y /\
  In (x, fx) (combine (hs_hawks s) (hs_preds s)) /\ In (z, fz) (combine (hs_hawks s) (hs_preds s)) /\ (fx < fz)%Q /\ (y == - fx)%Q /\ ~ (y == fx)%Q.
Proof. exact nhho_max. Qed.
Print Assumptions C74_max_refuted.

(** C74: num_warmups=None means as many samples as hawks, not the documented 20*len(bounds). *)
Theorem C74_warmups_refuted : exists train predict expf fit ds mt n ts ngen x0 lw lp drs r,
  nh_evolute sg_net train predict expf Mmin fit ds mt n ts None ngen x0 lw lp drs = Some r /\ h_warm r = n /\ h_warm r <> 20 * length ds.
Proof. exact nhho_warmups. Qed.
Print Assumptions C74_warmups_refuted.

(** C74: the networks are fitted to scaled labels and their output is never scaled back: with a
    regressor that keeps within its targets, every value reported lies between 0 and 1 (between -1
    and 0 when maximising), whatever the user's function. *)
Theorem C74_units net raw predict sqrtf ts sh expf m fit ds mt n warm ngen x0 lw lp drs r :
  within_targets raw predict -> wf_dims ds -> discrete_ok mt ds -> (forall i j, 0 <= lh_u lw i j <= 1)%Q -> (forall i j, 0 <= lh_u lp i j <= 1)%Q -> good_hawks ds n x0 ->
  nh_evolute net (nn_train raw sqrtf ts sh) predict expf m fit ds mt n ts warm ngen x0 lw lp drs = Some r ->
  forall i y, nth_error (hy r) i = Some y -> match m with Mmin => (0 <= y <= 1)%Q | Mmax => (-1 <= y <= 0)%Q end.
Proof. exact (fun B => reported_unit net raw predict sqrtf ts sh B expf m fit ds mt n warm ngen x0 lw lp drs r). Qed.
Print Assumptions C74_units.
