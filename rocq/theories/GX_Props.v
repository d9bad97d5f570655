(** C113: the genetic algorithm of the input files. *)
From Coq Require Import List Arith ZArith QArith Bool.
From Verif Require Import Base Space_Model Space_Spec ES_Model GX_Model GX_Spec GX_Proofs GX_Final GX_Demo.
Import ListNotations.
Open Scope nat_scope.

(** C113: whatever the draws and the rewards, every individual that is evaluated is a point of the space: inside its
    bounds, whole where whole numbers are asked for. *)
Theorem C113_feasible : forall expf tau tau' c fit ini drs raws pop l, sound c -> units ini ->
  ga_build expf tau tau' c fit ini drs raws = Some (pop, l) ->
  (forall m, In m pop -> feasible (g_dims c) (m_ind m)) /\
  (forall gen m, In gen l -> In m (gn_offspring gen) -> feasible (g_dims c) (m_ind m)).
Proof. exact feasible_ga. Qed.
Print Assumptions C113_feasible.

(** C113: the strategies of whole numbers stay between smin and smax. *)
Theorem C113_strategies : forall expf tau tau' c fit ini drs raws pop l, sound c -> units ini ->
  ga_build expf tau tau' c fit ini drs raws = Some (pop, l) ->
  (forall m, In m pop -> strat_int c (m_strat m)) /\
  (forall gen m, In gen l -> In m (gn_offspring gen) -> strat_int c (m_strat m)).
Proof. exact strategies_ga. Qed.
Print Assumptions C113_strategies.

(** C113: the strategies of the other numbers do not: mutation can take one above smax. *)
Theorem C113_strategies_refuted : exists expf tau tau' c f ini drs raws pop l gen m s,
  (forall x, (0 < expf x)%Q) /\ sound c /\ units ini /\
  ga_build expf tau tau' c f ini drs raws = Some (pop, l) /\
  In gen l /\ In m (gn_offspring gen) /\ In s (m_strat m) /\ (g_smax c < s)%Q.
Proof. exact strategy_leaves. Qed.
Print Assumptions C113_strategies_refuted.

(** C113: lambda individuals are evaluated at first and in each of the ngen generations. *)
Theorem C113_counts : forall expf tau tau' c fit ini drs raws pop l, sound c -> units ini ->
  ga_build expf tau tau' c fit ini drs raws = Some (pop, l) ->
  length pop = asked c /\ length l = g_ngen c /\ forall gen, In gen l -> length (gn_offspring gen) = asked c.
Proof. exact counts_asked. Qed.
Print Assumptions C113_counts.

(** C113: lambda is pop if it is not given or 0, wherever the statements below name it. *)
Theorem C113_lambda : forall c, ga_lambda c = asked c.
Proof. exact lambda_asked. Qed.
Print Assumptions C113_lambda.

(** C113: the number of rows of the dataset is kbs_frac * lambda, rounded down. *)
Theorem C113_share : forall c frac, (0 <= frac)%Q ->
  (inject_Z (kbs_count c frac) <= frac * inject_Z (Z.of_nat (asked c)))%Q /\
  (frac * inject_Z (Z.of_nat (asked c)) < inject_Z (kbs_count c frac) + 1)%Q.
Proof. exact share_floor. Qed.
Print Assumptions C113_share.

(** C113: each individual carries the answer of its own evaluation, and each evaluation belongs to one individual. *)
Theorem C113_rewards : forall expf tau tau' c fit ini drs raws pop l, sound c -> units ini ->
  ga_build expf tau tau' c fit ini drs raws = Some (pop, l) ->
  (forall j m, nth_error pop j = Some m -> m_fit m = fit j (m_ind m)) /\
  (forall i gen j m, nth_error l i = Some gen -> nth_error (gn_offspring gen) j = Some m ->
     m_fit m = fit (S i * ga_lambda c + j) (m_ind m)).
Proof. exact rewards_ga. Qed.
Print Assumptions C113_rewards.

(** C113: the next parents are the best offspring, the best first, with the last places given to different rows of
    the dataset when there is one. *)
Theorem C113_survivors : forall expf tau tau' c fit ini drs raws pop l, sound c -> units ini ->
  ga_build expf tau tau' c fit ini drs raws = Some (pop, l) -> succession c pop l.
Proof. exact succession_ga. Qed.
Print Assumptions C113_survivors.

(** C113: below cxpb a child is two different parents with one stretch exchanged, in the individual and in the
    strategy alike; from cxpb + mutpb on it is a copy of a parent. *)
Theorem C113_children : forall expf tau tau' c fit ini drs raws pop l i gen j m, sound c -> units ini ->
  ga_build expf tau tau' c fit ini drs raws = Some (pop, l) ->
  nth_error l i = Some gen -> nth_error (gn_offspring gen) j = Some m ->
  ((od_rn (drs (S i) j) < g_cxpb c)%Q -> crossed (gn_parents gen) m) /\
  ((g_cxpb c <= od_rn (drs (S i) j))%Q -> (g_cxpb c + g_mutpb c <= od_rn (drs (S i) j))%Q -> copied (gn_parents gen) m).
Proof. exact children_ga. Qed.
Print Assumptions C113_children.

(** C113: a report appears every check_freq generations and after the last, and its best reward is the greatest of
    that generation's offspring. *)
Theorem C113_report : forall expf tau tau' c fit ini drs raws pop l i gen, sound c -> units ini ->
  ga_build expf tau tau' c fit ini drs raws = Some (pop, l) -> nth_error l i = Some gen ->
  (gn_report gen <> None <-> S i mod g_freq c = 0 \/ S i = g_ngen c) /\
  forall q, gn_report gen = Some q -> greatest q (gn_offspring gen).
Proof. exact report_ga. Qed.
Print Assumptions C113_report.

(** C113: the best reward is not the best so far: it can fall from one generation to the next, with a fixed reward
    function. *)
Theorem C113_best_refuted : exists expf tau tau' c f ini drs raws pop l g1 g2 q1 q2,
  (forall x, (0 < expf x)%Q) /\ sound c /\ units ini /\
  ga_build expf tau tau' c (fun _ => f) ini drs raws = Some (pop, l) /\
  nth_error l 0 = Some g1 /\ nth_error l 1 = Some g2 /\
  gn_report g1 = Some q1 /\ gn_report g2 = Some q2 /\ (q2 < q1)%Q.
Proof. exact best_falls. Qed.
Print Assumptions C113_best_refuted.

(** C113: with two numbers or more, two survivors or more and a dataset of enough rows whose share is not more than
    the survivors, no run raises, whatever the draws. *)
Theorem C113_total : forall expf tau tau' c fit ini drs raws, (forall x, (0 < expf x)%Q) -> sound c -> units ini -> enough c ->
  2 <= length (g_dims c) -> 2 <= g_mu c -> 2 <= ga_lambda c -> 1 <= g_freq c ->
  exists pop l, ga_build expf tau tau' c fit ini drs raws = Some (pop, l).
Proof. exact build_total. Qed.
Print Assumptions C113_total.

(** C113: a share of the dataset greater than the survivors always raises in the first generation. *)
Theorem C113_share_raises : forall expf tau tau' c fit ini drs raws rows frac, g_kbs c = Some (rows, frac) -> 1 <= g_ngen c ->
  (Z.of_nat (Nat.min (g_mu c) (ga_lambda c)) < kbs_count c frac)%Z \/ (kbs_count c frac < 0)%Z ->
  ga_build expf tau tau' c fit ini drs raws = None.
Proof. exact kbs_raises. Qed.
Print Assumptions C113_share_raises.

(** C113: a dataset of lambda rows or fewer raises. *)
Theorem C113_rows_raises : forall expf tau tau' c fit ini drs raws rows frac, g_kbs c = Some (rows, frac) ->
  1 <= ga_lambda c -> length rows <= ga_lambda c -> ga_build expf tau tau' c fit ini drs raws = None.
Proof. exact rows_raises. Qed.
Print Assumptions C113_rows_raises.

(** C113: any crossover raises with lambda below two, with fewer than two survivors after the first generation, or
    for individuals of one number. *)
Theorem C113_pair_raises : forall expf tau tau' c fit ini drs raws i j, sound c -> units ini ->
  i < g_ngen c -> j < ga_lambda c -> (od_rn (drs (S i) j) < g_cxpb c)%Q ->
  (ga_lambda c < 2 \/ 1 <= i /\ g_mu c < 2 \/ length (g_dims c) < 2) ->
  ga_build expf tau tau' c fit ini drs raws = None.
Proof. exact pair_raises. Qed.
Print Assumptions C113_pair_raises.
