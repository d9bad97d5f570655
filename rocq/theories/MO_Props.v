(** Property theorems C86 (Monitor), C87 (its log files) and C88 (evaluate_policy). *)
From Coq Require Import List Arith ZArith QArith Bool Permutation String.
From Verif Require Import Base MO_Model MO_Spec MO_Proofs MO_Eval.
Import ListNotations.
Open Scope nat_scope.

(** C86: after any calls of reset and step, refused ones included, get_episode_rewards and get_episode_lengths are
    the sums of the rewards and the numbers of steps of the episodes that came to their end, and
    get_total_steps is the number of steps made. *)
Theorem C86_episodes : forall (S A O V : Type) (ereset : S -> (key -> option V) -> S) (enext : S -> A -> S) (obs_of : S -> O) rew done_of info_of time early rkw ikw s cs m xs,
  session ereset enext obs_of rew done_of info_of time early rkw ikw cs (new_mon s) = (m, xs) -> smooth xs ->
  let fs := finished (fun _ => None) [] (combine cs xs) in
  m_er m = map (fun e => total (snd (fst e))) fs /\ m_el m = map (fun e => List.length (snd (fst e))) fs /\
  m_total m = List.length (filter is_step xs).
Proof. exact @mon_episodes. Qed.
Print Assumptions C86_episodes.

(** C86: without early resets every step counted belongs to a finished episode or to the one going on. *)
Theorem C86_count : forall (S A O V : Type) (ereset : S -> (key -> option V) -> S) (enext : S -> A -> S) (obs_of : S -> O) rew done_of info_of time early rkw ikw s cs m xs,
  early = false -> session ereset enext obs_of rew done_of info_of time early rkw ikw cs (new_mon s) = (m, xs) -> smooth xs ->
  m_total m = list_sum (m_el m) + List.length (ongoing [] xs).
Proof. exact @mon_count. Qed.
Print Assumptions C86_count.

(** C86: step raises exactly when no episode is going on, and then changes nothing. *)
Theorem C86_step_guard : forall (S A O V : Type) (ereset : S -> (key -> option V) -> S) (enext : S -> A -> S) (obs_of : S -> O) rew done_of info_of time early rkw ikw s cs m xs a,
  session ereset enext obs_of rew done_of info_of time early rkw ikw cs (new_mon s) = (m, xs) -> smooth xs ->
  let z := mon_step enext obs_of rew done_of info_of time ikw a m in
  (snd z = RError NeedsReset <-> going false xs = false) /\ (snd z = RError NeedsReset -> fst z = m).
Proof. exact @mon_step_guard. Qed.
Print Assumptions C86_step_guard.

(** C86: reset is refused exactly when an episode is going on and early resets are not allowed, and then changes
    nothing. *)
Theorem C86_reset_guard : forall (S A O V : Type) (ereset : S -> (key -> option V) -> S) (enext : S -> A -> S) (obs_of : S -> O) rew done_of info_of time early rkw ikw s cs m xs kw,
  session ereset enext obs_of rew done_of info_of time early rkw ikw cs (new_mon s) = (m, xs) -> smooth xs ->
  let z := mon_reset ereset obs_of early rkw kw m in
  (snd z = RError Early <-> early = false /\ going false xs = true) /\ (snd z = RError Early -> fst z = m).
Proof. exact @mon_reset_guard. Qed.
Print Assumptions C86_reset_guard.

(** C86: the wrapped environment gets the calls that do not raise and no others, and its observations, rewards,
    flags and infos are passed on unchanged. *)
Theorem C86_transparent : forall (S A O V : Type) (ereset : S -> (key -> option V) -> S) (enext : S -> A -> S) (obs_of : S -> O) rew done_of info_of time early rkw ikw cs m m' xs,
  session ereset enext obs_of rew done_of info_of time early rkw ikw cs m = (m', xs) -> Forall (fun x => info_error x = false) xs ->
  let ok := accepted (combine cs xs) in
  bare ereset enext obs_of rew done_of info_of (map fst ok) (m_env m) = (m_env m', map (fun cx => forget (snd cx)) ok).
Proof. exact @mon_transparent. Qed.
Print Assumptions C86_transparent.

(** C86: at every moment the log file has exactly one row for each finished episode, in order, with its
    keywords, its rounded reward and its length, and only columns of the header. *)
Theorem C86_log : forall (S A O V : Type) (ereset : S -> (key -> option V) -> S) (enext : S -> A -> S) (obs_of : S -> O) rew done_of info_of time early rkw ikw s cs m xs,
  session ereset enext obs_of rew done_of info_of time early rkw ikw cs (new_mon s) = (m, xs) -> smooth xs ->
  Forall2 (row_ok rkw ikw) (finished (fun _ => None) [] (combine cs xs)) (m_rows m).
Proof. exact @mon_log. Qed.
Print Assumptions C86_log.

(** C86: the reward in the log differs from the exact one by at most half a millionth. *)
Theorem C86_rounding : forall x, (round6 x - (1 # 2000000) <= x <= round6 x + (1 # 2000000))%Q.
Proof. exact round6_near. Qed.
Print Assumptions C86_rounding.

(** C86: the times of the episodes are in order and not negative if the clock does not run backwards. *)
Theorem C86_times : forall (S A O V : Type) (ereset : S -> (key -> option V) -> S) (enext : S -> A -> S) (obs_of : S -> O) rew done_of info_of time early rkw ikw,
  (forall i, (time i <= time (1 + i)%nat)%Q) -> forall cs m m' xs, session ereset enext obs_of rew done_of info_of time early rkw ikw cs m = (m', xs) ->
  ascending (m_et m) -> (forall t, In t (m_et m) -> (0 <= t <= time (m_clock m) - time 0%nat)%Q) ->
  ascending (m_et m') /\ (forall t, In t (m_et m') -> (0 <= t <= time (m_clock m') - time 0%nat)%Q).
Proof. exact @mon_times. Qed.
Print Assumptions C86_times.

(** C86: without keywords no call raises for a missing one. *)
Theorem C86_no_keywords : forall (S A O V : Type) (ereset : S -> (key -> option V) -> S) (enext : S -> A -> S) (obs_of : S -> O) rew done_of info_of time early rkw ikw s cs m xs,
  rkw = [] -> ikw = [] -> session ereset enext obs_of rew done_of info_of time early rkw ikw cs (new_mon s) = (m, xs) -> smooth xs.
Proof. exact @mon_no_keyword. Qed.
Print Assumptions C86_no_keywords.

(** C86, refuted after a reset that lacks a keyword: it raises before the environment is reset, but the next step
    is accepted and goes to the environment that was not reset; and if early resets are not allowed, repeating
    the reset with the keyword is refused. *)
Theorem C86_missing_keyword_refuted : forall (S A O V : Type) (ereset : S -> (key -> option V) -> S) (enext : S -> A -> S) (obs_of : S -> O) rew done_of info_of time early rkw ikw (m : @mon S V) kw,
  early = true \/ m_needs m = true -> (exists k, In k rkw /\ kw k = None) ->
  exists m' k, mon_reset ereset obs_of early rkw kw m = (m', RError (NoKeyword k)) /\ m_env m' = m_env m /\ m_total m' = m_total m /\
  (forall a, let z := mon_step enext obs_of rew done_of info_of time ikw a m' in snd z <> RError NeedsReset /\ m_env (fst z) = enext (m_env m) a) /\
  (early = false -> forall kw', mon_reset ereset obs_of early rkw kw' m' = (m', RError Early)).
Proof. exact @mon_keyword. Qed.
Print Assumptions C86_missing_keyword_refuted.

(** C86, refuted for an episode whose last info lacks a wanted key: the environment makes the step, the call
    raises, and neither the step nor the episode is counted or logged. *)
Theorem C86_missing_info_refuted : forall (S A O V : Type) (enext : S -> A -> S) (obs_of : S -> O) rew done_of info_of time ikw (m : @mon S V) (a : A),
  m_needs m = false -> done_of (m_env m) a = true -> (exists k, In k ikw /\ info_of (m_env m) a k = None) ->
  exists m' k, mon_step enext obs_of rew done_of info_of time ikw a m = (m', RError (NoInfo k)) /\ m_env m' = enext (m_env m) a /\ m_needs m' = true /\
  m_total m' = m_total m /\ m_er m' = m_er m /\ m_el m' = m_el m /\ m_rows m' = m_rows m.
Proof. exact @mon_info. Qed.
Print Assumptions C86_missing_info_refuted.

(** C87: load_results fails only without a file; otherwise it returns the rows of all files, once each, in the
    order of time, with times counted from the start of the earliest file. *)
Theorem C87_load : forall (X : Type) (logs : list (Q * list (Q * X))) rows, load_results logs = Some rows ->
  exists start, (exists l, In l logs /\ start = fst l) /\ (forall l, In l logs -> (start <= fst l)%Q) /\
  Permutation rows (flat_map (fun l => map (fun tx => (fst tx + fst l - start, snd tx)%Q) (snd l)) logs) /\ ascending (map fst rows).
Proof. exact @load_spec. Qed.
Print Assumptions C87_load.
Theorem C87_load_raises : forall (X : Type) (logs : list (Q * list (Q * X))), load_results logs = None <-> logs = [].
Proof. exact @load_total. Qed.
Print Assumptions C87_load_raises.

(** C87: the rows of a single log come back as they were written. *)
Theorem C87_single : forall (X : Type) t0 (log : list (Q * X)), ascending (map fst log) ->
  exists rows, load_results [(t0, log)] = Some rows /\ Forall2 (fun a b => (fst a == fst b)%Q /\ snd a = snd b) rows log.
Proof. exact @load_single. Qed.
Print Assumptions C87_single.

(** C87: the name of the log file always ends in monitor.csv, so that load_results looks at it; different
    arguments that are not directories and do not end so give different files. *)
Theorem C87_name : forall isdir f, ends_with EXT (log_name isdir f) = true.
Proof. exact log_name_ends. Qed.
Print Assumptions C87_name.
Theorem C87_names_distinct : forall f g, ends_with EXT f = false -> ends_with EXT g = false -> f <> g -> log_name false f <> log_name false g.
Proof. exact log_name_distinct. Qed.
Print Assumptions C87_names_distinct.

(** C87, refuted for arguments in general: for each there is another that names the same file, which the second
    Monitor empties. *)
Theorem C87_names_refuted : forall f, ends_with EXT f = false -> exists g, g <> f /\ log_name false g = log_name false f.
Proof. exact log_name_shared. Qed.
Print Assumptions C87_names_refuted.

(** C88: what evaluate_policy returns are the sums and lengths of n_eval_episodes complete episodes of the policy,
    one after the other, each begun by a reset, and the mean of the sums, which is above the threshold. *)
Theorem C88_report : forall (M A O P : Type) (mreset : M -> M * option O) (mstep : A -> M -> M * option (O * Q * bool)) (predict : nat -> O -> option P -> A * option P)
  fuel k thr m q m' q' mu l, evaluate mreset mstep predict fuel k thr m q = Done (m', q', mu, l) ->
  exists ls, episodes mreset mstep predict k m q ls m' q' /\ l = report ls /\ List.length l = k /\ mu = mean (map total ls) /\
  (forall t, thr = Some t -> exists x, mu = Some x /\ (t < x)%Q).
Proof. exact @evaluate_sound. Qed.
Print Assumptions C88_report.

(** C88: if the policy ends k episodes, evaluate_policy returns them; with a threshold it raises if the mean is
    not above it - also when the mean equals the threshold - or if there is no episode. *)
Theorem C88_total : forall (M A O P : Type) (mreset : M -> M * option O) (mstep : A -> M -> M * option (O * Q * bool)) (predict : nat -> O -> option P -> A * option P)
  k m q ls m' q', episodes mreset mstep predict k m q ls m' q' -> forall fuel thr, Forall (fun rs => List.length rs <= fuel) ls ->
  evaluate mreset mstep predict fuel k thr m q =
  match thr with
  | None => Done (m', q', mean (map total ls), report ls)
  | Some t => match mean (map total ls) with
              | Some x => if Qltb t x then Done (m', q', Some x, report ls) else Raise
              | None => Raise
              end
  end.
Proof. exact @evaluate_complete. Qed.
Print Assumptions C88_total.

(** C88: on a Monitor without keywords the evaluation gives what it gives on the environment itself, and the
    Monitor notes exactly the rewards and lengths reported. *)
Theorem C88_monitor : forall (S A O V P : Type) (ereset : S -> (key -> option V) -> S) (enext : S -> A -> S) (obs_of : S -> O) rew done_of info_of time early
  (predict : nat -> O -> option P -> A * option P) k fuel thr (m : @mon S V) q, early = true \/ m_needs m = true ->
  let on_monitor := evaluate (obj_reset ereset obs_of early []) (obj_step enext obs_of rew done_of info_of time []) predict fuel k thr m q in
  match evaluate (env_reset ereset obs_of) (env_step enext obs_of rew done_of) predict fuel k thr (m_env m) q with
  | Done (s', q', mu, l) => exists m', on_monitor = Done (m', q', mu, l) /\ m_env m' = s' /\ m_er m' = m_er m ++ map fst l /\ m_el m' = m_el m ++ map snd l
  | Raise => on_monitor = Raise
  | Fuel => on_monitor = Fuel
  end.
Proof. exact @monitor_evaluate. Qed.
Print Assumptions C88_monitor.

(** C88: the same in a VecEnv with one Monitor that allows early resets ... *)
Theorem C88_vec : forall (S A O V P : Type) (ereset : S -> (key -> option V) -> S) (enext : S -> A -> S) (obs_of : S -> O) rew done_of info_of time early
  (predict : nat -> O -> option P -> A * option P) k thr fuel (m : @mon S V) q m' q' mu l, early = true ->
  evaluate (obj_reset ereset obs_of early []) (vec_step ereset enext obs_of rew done_of info_of time early [] []) predict fuel k thr m q = Done (m', q', mu, l) ->
  m_er m' = m_er m ++ map fst l /\ m_el m' = m_el m ++ map snd l.
Proof. exact @vec_evaluate. Qed.
Print Assumptions C88_vec.

(** C88, refuted if it does not allow them: two episodes or more never return, because the VecEnv has already
    reset the Monitor when evaluate_policy resets it; the second reset raises. *)
Theorem C88_vec_refuted : forall (S A O V P : Type) (ereset : S -> (key -> option V) -> S) (enext : S -> A -> S) (obs_of : S -> O) rew done_of info_of time early
  (predict : nat -> O -> option P -> A * option P) k fuel thr (m : @mon S V) q, early = false -> m_needs m = true -> 2 <= k ->
  match evaluate (obj_reset ereset obs_of early []) (vec_step ereset enext obs_of rew done_of info_of time early [] []) predict fuel k thr m q with
  | Done _ => False | _ => True end.
Proof. exact @vec_raises. Qed.
Print Assumptions C88_vec_refuted.
Theorem C88_vec_raises : forall (S A O V P : Type) (ereset : S -> (key -> option V) -> S) (enext : S -> A -> S) (obs_of : S -> O) rew done_of info_of time early
  (predict : nat -> O -> option P -> A * option P) k thr (m : @mon S V) q s1 o1 rs m2 q2 fuel, early = false -> m_needs m = true -> 2 <= k ->
  let vstep := vec_step ereset enext obs_of rew done_of info_of time early [] [] in
  obj_reset ereset obs_of early [] m = (s1, Some o1) -> episode vstep predict s1 q o1 None rs m2 q2 -> List.length rs <= fuel ->
  evaluate (obj_reset ereset obs_of early []) vstep predict fuel k thr m q = Raise.
Proof. exact @vec_raises_now. Qed.
Print Assumptions C88_vec_raises.

(** C86, refuted for a reset keyword named r: every row shows the keyword in the place of the reward. *)
Theorem C86_reserved_refuted : forall (S A O V : Type) (ereset : S -> (key -> option V) -> S) (enext : S -> A -> S) (obs_of : S -> O) rew done_of info_of time early rkw ikw s cs m xs,
  In KR rkw -> session ereset enext obs_of rew done_of info_of time early rkw ikw cs (new_mon s) = (m, xs) -> smooth xs ->
  Forall2 (fun e row => exists v, fst (fst e) KR = Some v /\ dget row KR = Some (Other v)) (finished (fun _ => None) [] (combine cs xs)) (m_rows m).
Proof. exact @mon_reserved. Qed.
Print Assumptions C86_reserved_refuted.
