(** C32, C33, C54: the Animorphic Ensemble Optimizer. *)
From Coq Require Import List Arith ZArith QArith Bool Permutation Lia Lqa.
From Verif Require Import Base Space_Model Opt_Model Opt_Spec AEO_Model AEO_Spec AEO_Matrix AEO_Run AEO_Top AEO_Total AEO_Demo.
Import ListNotations.
Open Scope nat_scope.

(** In every cycle of every run the migration phase moves individuals between the populations
    without losing or duplicating any, for every outcome of the random draws ... *)
Theorem C32_conserved : forall pw pa ev dr Ncyc fit algs stop before x0 pop0 x y st, draws_ok dr ->
  aeo_evolute pw pa ev dr Ncyc fit algs stop before x0 pop0 = Some (x, y, st) ->
  Forall (fun lg => Permutation (individuals (cl_before lg)) (individuals (cl_after lg))) (as_logs st).
Proof.
  intros pw pa ev dr Ncyc fit algs stop before x0 pop0 x y st Hd H.
  refine (Forall_impl _ _ (run_migration pw pa ev dr Ncyc fit algs stop before x0 pop0 x y st Hd H)). intros lg K. exact (proj1 (proj2 K)).
Qed.
Print Assumptions C32_conserved.

(** ... those who stay keep their fitness value, those who move arrive with an unknown one ... *)
Theorem C32_migration : forall pw pa ev dr Ncyc fit algs stop before x0 pop0 x y st, draws_ok dr ->
  aeo_evolute pw pa ev dr Ncyc fit algs stop before x0 pop0 = Some (x, y, st) ->
  Forall (fun lg => migration (cl_before lg) (cl_after lg) /\ Forall in_step (cl_before lg) /\ Forall in_step (cl_after lg)) (as_logs st).
Proof.
  intros pw pa ev dr Ncyc fit algs stop before x0 pop0 x y st Hd H.
  refine (Forall_impl _ _ (run_migration pw pa ev dr Ncyc fit algs stop before x0 pop0 x y st Hd H)).
  intros lg K. exact (conj (proj1 K) (proj2 (proj2 K))).
Qed.
Print Assumptions C32_migration.

(** ... and every fitness value in a population is the one of the member at its place. *)
Theorem C32_values : forall pw pa ev dr Ncyc fit algs stop before x0 pop0 x y st, draws_ok dr -> honest fit ev ->
  aeo_evolute pw pa ev dr Ncyc fit algs stop before x0 pop0 = Some (x, y, st) ->
  Forall (fun lg => Forall (own_values fit) (cl_before lg) /\ Forall (own_values fit) (cl_after lg)) (as_logs st).
Proof. exact run_own. Qed.
Print Assumptions C32_values.

(** The number of populations and of individuals never changes in a run. *)
Theorem C32_count : forall pw pa ev dr Ncyc fit algs stop before x0 pop0 x y st, draws_ok dr ->
  aeo_evolute pw pa ev dr Ncyc fit algs stop before x0 pop0 = Some (x, y, st) ->
  let n := length (individuals (initial algs x0 pop0)) in
  Forall (fun lg => length (cl_before lg) = length algs /\ length (cl_after lg) = length algs /\
                    length (individuals (cl_before lg)) = n /\ length (individuals (cl_after lg)) = n) (as_logs st).
Proof. exact run_count. Qed.
Print Assumptions C32_count.

(** The start: every given individual is in a population when all labels name one ... *)
Theorem C32_start : forall algs x0 pop0, length x0 = length pop0 -> Forall (fun i => i < length algs) pop0 ->
  Permutation (individuals (initial algs x0 pop0)) x0.
Proof. exact initial_perm. Qed.
Print Assumptions C32_start.
(** ... but an individual whose label names none is dropped silently. *)
Theorem C32_labels_refuted : exists algs x0 pop0, length x0 = length pop0 /\ length (individuals (initial algs x0 pop0)) < length x0.
Proof. exists algs0, x00, [0; 0; 0; 0; 1; 1; 1; 2]. vm_compute. split; [reflexivity | repeat constructor]. Qed.
Print Assumptions C32_labels_refuted.

(** In every cycle the scaled strengths and the destination probabilities are probability
    vectors, the export probabilities are in [0,1] and the migration matrix is column stochastic. *)
Theorem C33_probabilities : forall pw pa ev dr Ncyc fit algs stop before x0 pop0 x y st, power_ok pw ->
  aeo_evolute pw pa ev dr Ncyc fit algs stop before x0 pop0 = Some (x, y, st) -> Forall probabilities (as_logs st).
Proof. exact run_probs. Qed.
Print Assumptions C33_probabilities.

(** The export probabilities are in [0,1] for every vector of scaled strengths and every q of the
    ramps or between -1 and 1 ... *)
Theorem C33_weights : forall r c Ncyc qt strs, q_ok r -> 1 <= c -> c <= Ncyc -> get_q r c Ncyc = Some qt -> Forall prob strs ->
  Forall prob (map (fun s => ((1#2) - s) * qt + (1#2))%Q strs).
Proof.
  intros r c Ncyc qt strs Hr H1 H2 Hq Hs. exact (wts_ok strs qt Hs (proj1 (get_q_range r c Ncyc qt Hr H1 H2 Hq)) (proj2 (get_q_range r c Ncyc qt Hr H1 H2 Hq))).
Qed.
Print Assumptions C33_weights.

(** ... so with proper settings no run ever raises, whatever the draws and the fitness function. *)
Theorem C33_total : forall pw pa ev dr Ncyc fit algs stop before x0 pop0,
  power_ok pw -> settings_ok pa Ncyc -> draws_ok dr -> keeps_size ev -> never_raises ev ->
  length x0 = length pop0 -> enough algs pop0 ->
  exists r, aeo_evolute pw pa ev dr Ncyc fit algs stop before x0 pop0 = Some r.
Proof. intros pw pa ev dr Ncyc fit algs stop before x0 pop0 H1 H2 H3 H4 H5. exact (run_total pw pa ev dr Ncyc H1 H2 H3 H4 H5 fit algs stop before x0 pop0). Qed.
Print Assumptions C33_total.
(** The constructor accepts any number for q: with q = 3 an export probability is outside [0,1]
    and the run raises. *)
Theorem C33_q_refuted : exists pa, pa_q pa = Const 3 /\ power_ok pw0 /\ draws_ok dr0 /\ keeps_size stay_ev /\ never_raises stay_ev /\ enough algs0 pop00 /\
  aeo_evolute pw0 pa stay_ev dr0 2 first algs0 (fun _ => false) [] x00 pop00 = None.
Proof. exists paq. exact (conj eq_refl (conj pw0_ok (conj dr0_ok (conj stay_keeps (conj stay_total (conj enough0 q3_raises)))))). Qed.
Print Assumptions C33_q_refuted.
(** With one cycle a ramp for alpha always raises. *)
Theorem C33_one_cycle_refuted : forall pw pa ev dr fit algs stop before x0 pop0, (pa_alpha pa = Up \/ pa_alpha pa = Down) ->
  aeo_evolute pw pa ev dr 1 fit algs stop before x0 pop0 = None.
Proof. exact one_cycle_raises. Qed.
Print Assumptions C33_one_cycle_refuted.
(** The sum in the migration matrix is the expected fraction of exported members, h. *)
Theorem C33_mean : forall n h, 0 < n -> (mean_part n h == h)%Q.
Proof. exact mean_part_eq. Qed.
Print Assumptions C33_mean.
(** ncr is the binomial coefficient. *)
Theorem C33_ncr : forall n k, k <= n -> ncr n k = choose n k.
Proof. exact ncr_choose. Qed.
Print Assumptions C33_ncr.

(** The result of evolute is the best of all points evaluated since the construction of the
    object, with its own value. *)
Theorem C54_best : forall pw pa ev dr Ncyc fit algs stop before x0 pop0 x y st,
  aeo_evolute pw pa ev dr Ncyc fit algs stop before x0 pop0 = Some (x, y, st) ->
  best_of Mmin fit (as_seen st) x y /\ incl before (as_seen st).
Proof. exact run_best. Qed.
Print Assumptions C54_best.

(** The run of AEO_Demo meets the hypotheses. *)
Example aeo_example : exists st, aeo_evolute pw0 pa0 stay_ev dr0 2 first algs0 (fun _ => false) [] x00 pop00 = Some ([1%Q], 1%Q, st) /\
  draws_ok dr0 /\ power_ok pw0 /\ settings_ok pa0 2 /\ keeps_size stay_ev /\ honest first stay_ev /\ never_raises stay_ev /\ enough algs0 pop00 /\
  length (as_logs st) = 2.
Proof.
  destruct run0_result as (st & E & E'). exists st. split; [exact E|]. split; [exact dr0_ok|]. split; [exact pw0_ok|]. split; [exact set0_ok|].
  split; [exact stay_keeps|]. split; [exact stay_honest|]. split; [exact stay_total|]. split; [exact enough0|].
  rewrite <- (map_length (fun lg => (map ap_mem (cl_after lg), cl_mig lg, cl_n lg))), E'. reflexivity.
Qed.
