(** C36, C37, C38, C57, C58 and C59: returns, advantages, action scaling, batch layout, logged
    episode rewards and explained variance. *)
From Coq Require Import List Arith ZArith QArith Bool.
From Verif Require Import Base Opt_Model Ret_Model Ret_Spec Ret_Proofs Ret_Disc Ret_Retrace Ret_Demo.
Import ListNotations.
Open Scope nat_scope.

(** C36: the advantage is the sum of (gamma lambda)^i times the temporal difference errors up to
    the last step of the episode in the rollout. *)
Theorem C36_advantage gamma lam n k rews vals dones final lastv : rect n k rews -> rect n k vals -> rect n k dones -> length final = k -> length lastv = k ->
  forall t e, t < n -> e < k -> exists h, horizon n (ended n dones final e) t h /\
  (entry 0 (gae_advs gamma lam rews vals dones final lastv) t e ==
   dsum (gamma * lam) (td gamma (fun s => entry 0 rews s e) (value_at n vals lastv e) (ended n dones final e)) t (h - t))%Q.
Proof. exact (gae_exact gamma lam n k rews vals dones final lastv). Qed.
Print Assumptions C36_advantage.
Example C36_advantage_ex : exists h, horizon 3 (ended 3 dones0 final0 1) 0 h /\
  (entry 0 (gae_advs (1 # 2) (1 # 3) rews0 vals0 dones0 final0 lastv0) 0 1 ==
   dsum ((1 # 2) * (1 # 3)) (td (1 # 2) (fun s => entry 0 rews0 s 1) (value_at 3 vals0 lastv0 1) (ended 3 dones0 final0 1)) 0 (h - 0))%Q.
Proof. exact (C36_advantage (1 # 2) (1 # 3) 3 2 rews0 vals0 dones0 final0 lastv0 Rr0 Rv0 Rd0 eq_refl eq_refl 0 1 (Nat.lt_0_succ 2) (Nat.lt_succ_diag_r 1)). Qed.

(** The last step of the episode is unique, so the sums above are determined. *)
Theorem C36_horizon n ends t h h' : horizon n ends t h -> horizon n ends t h' -> h = h'.
Proof. exact (horizon_unique n ends t h h'). Qed.
Print Assumptions C36_horizon.
Example C36_horizon_ex : forall h, horizon 3 (ended 3 dones0 final0 1) 0 h -> h = 1.
Proof. intros h H. refine (C36_horizon 3 _ 0 h 1 H _). split; [split; repeat constructor|]. split; [intros [|k] [A B]; [reflexivity|apply Nat.lt_1_r in B; discriminate]|left; reflexivity]. Qed.

(** The flattened returns hold, for environment [e] and step [t], advantage plus value. *)
Theorem C36_returns gamma lam n k rews vals dones final lastv : rect n k rews -> rect n k vals -> rect n k dones -> length final = k -> length lastv = k ->
  length (swap_and_flatten 0%Q k (gae_returns gamma lam rews vals dones final lastv)) = k * n /\
  forall t e, t < n -> e < k ->
  nth (e * n + t) (swap_and_flatten 0%Q k (gae_returns gamma lam rews vals dones final lastv)) 0%Q
  = (entry 0 (gae_advs gamma lam rews vals dones final lastv) t e + entry 0 vals t e)%Q.
Proof. exact (gae_return_layout gamma lam n k rews vals dones final lastv). Qed.
Print Assumptions C36_returns.
Example C36_returns_ex : length (swap_and_flatten 0%Q 2 (gae_returns (1 # 2) 1 rews0 vals0 dones0 final0 lastv0)) = 6.
Proof. exact (proj1 (C36_returns (1 # 2) 1 3 2 rews0 vals0 dones0 final0 lastv0 Rr0 Rv0 Rd0 eq_refl eq_refl)). Qed.

(** With lambda = 1 the return is the discounted sum of the episode's rewards, plus the discounted
    value of the state after the rollout only if the episode goes on. *)
Theorem C36_lambda_one gamma lam n k rews vals dones final lastv : rect n k rews -> rect n k vals -> rect n k dones -> length final = k -> length lastv = k ->
  forall t e, (lam == 1)%Q -> t < n -> e < k -> exists h, horizon n (ended n dones final e) t h /\
  (entry 0 (gae_advs gamma lam rews vals dones final lastv) t e + entry 0 vals t e
   == ret_spec gamma (fun s => entry 0 rews s e) (ended n dones final e) (nth e lastv 0) t h)%Q.
Proof. exact (gae_lambda1 gamma lam n k rews vals dones final lastv). Qed.
Print Assumptions C36_lambda_one.
Example C36_lambda_one_ex : exists h, horizon 3 (ended 3 dones0 final0 0) 0 h /\
  (entry 0 (gae_advs (1 # 2) 1 rews0 vals0 dones0 final0 lastv0) 0 0 + entry 0 vals0 0 0
   == ret_spec (1 # 2) (fun s => entry 0 rews0 s 0) (ended 3 dones0 final0 0) (nth 0 lastv0 0) 0 h)%Q.
Proof. exact (C36_lambda_one (1 # 2) 1 3 2 rews0 vals0 dones0 final0 lastv0 Rr0 Rv0 Rd0 eq_refl eq_refl 0 0 (Qeq_refl 1) (Nat.lt_0_succ 2) (Nat.lt_0_succ 1)). Qed.

(** With lambda = 0 the advantage is the temporal difference error. *)
Theorem C36_lambda_zero gamma lam n k rews vals dones final lastv : rect n k rews -> rect n k vals -> rect n k dones -> length final = k -> length lastv = k ->
  forall t e, (lam == 0)%Q -> t < n -> e < k ->
  (entry 0 (gae_advs gamma lam rews vals dones final lastv) t e == td gamma (fun s => entry 0 rews s e) (value_at n vals lastv e) (ended n dones final e) t)%Q.
Proof. exact (gae_lambda0 gamma lam n k rews vals dones final lastv). Qed.
Print Assumptions C36_lambda_zero.
Example C36_lambda_zero_ex : (entry 0 (gae_advs (1 # 2) 0 rews0 vals0 dones0 final0 lastv0) 0 0 ==
   td (1 # 2) (fun s => entry 0 rews0 s 0) (value_at 3 vals0 lastv0 0) (ended 3 dones0 final0 0) 0)%Q.
Proof. exact (C36_lambda_zero (1 # 2) 0 3 2 rews0 vals0 dones0 final0 lastv0 Rr0 Rv0 Rd0 eq_refl eq_refl 0 0 (Qeq_refl 0) (Nat.lt_0_succ 2) (Nat.lt_0_succ 1)). Qed.

(** Every array of the rollout (observations, actions, ...) is flattened in the same order. *)
Theorem C36_layout {A} (d : A) n k m : rect n k m -> length (swap_and_flatten d k m) = k * n /\
  forall t e, t < n -> e < k -> nth (e * n + t) (swap_and_flatten d k m) d = entry d m t e.
Proof. exact (flatten_layout d n k m). Qed.
Print Assumptions C36_layout.
Example C36_layout_ex : nth (1 * 3 + 2) (swap_and_flatten false 2 dones0) false = true.
Proof. exact (proj2 (C36_layout false 3 2 dones0 Rd0) 2 1 (Nat.lt_succ_diag_r 2) (Nat.lt_succ_diag_r 1)). Qed.

(** C37: [discount] is the discounted sum of the rest of the vector. *)
Theorem C37_discount x g : length (discount x g) = length x /\
  forall t, t < length x -> (nth t (discount x g) 0 == dsum g (fun s => nth s x 0%Q) t (length x - 1 - t))%Q.
Proof. exact (discount_exact x g). Qed.
Print Assumptions C37_discount.
Example C37_discount_ex : (nth 0 (discount [4; 2; 1]%Q (1 # 2)) 0 == dsum (1 # 2) (fun s => nth s [4; 2; 1]%Q 0%Q) 0 2)%Q.
Proof. exact (proj2 (C37_discount [4; 2; 1]%Q (1 # 2)) 0 (Nat.lt_0_succ 2)). Qed.

(** [discount_with_boundaries] stops before the next step that starts an episode. *)
Theorem C37_boundaries rewards starts g : rewards <> [] -> length starts = length rewards ->
  exists y, discount_with_boundaries rewards starts g = Some y /\ length y = length rewards /\
    forall t, t < length rewards -> exists h, horizon (length rewards) (fun s => nth (S s) starts false) t h /\
      (nth t y 0 == dsum g (fun s => nth s rewards 0%Q) t (h - t))%Q.
Proof. exact (dwb_exact rewards starts g). Qed.
Print Assumptions C37_boundaries.
Example C37_boundaries_ex : exists y, discount_with_boundaries [1; 2; 3]%Q [true; false; true] (1 # 2) = Some y /\ length y = 3 /\
    forall t, t < 3 -> exists h, horizon 3 (fun s => nth (S s) [true; false; true] false) t h /\
      (nth t y 0 == dsum (1 # 2) (fun s => nth s [1; 2; 3]%Q 0%Q) t (h - t))%Q.
Proof. refine (C37_boundaries [1; 2; 3]%Q [true; false; true] (1 # 2) _ eq_refl). discriminate. Qed.

(** On an empty array it raises. *)
Theorem C37_boundaries_empty_refuted : ~ (forall rewards starts g, length starts = length rewards -> exists y, discount_with_boundaries rewards starts g = Some y).
Proof. intros H. destruct (H [] [] 0%Q eq_refl) as (y & E). discriminate. Qed.
Print Assumptions C37_boundaries_empty_refuted.

(** [discount_with_dones] stops after the step that ends the episode. *)
Theorem C37_dones g rs ds t : length rs = length ds -> t < length rs -> exists h, horizon (length rs) (fun s => nth s ds false) t h /\
  (nth t (discount_with_dones rs ds g) 0 == dsum g (fun s => nth s rs 0%Q) t (h - t))%Q.
Proof. exact (dwd_exact g rs ds t). Qed.
Print Assumptions C37_dones.
Example C37_dones_ex : exists h, horizon 3 (fun s => nth s [false; true; false] false) 0 h /\
  (nth 0 (discount_with_dones [1; 2; 4]%Q [false; true; false] (1 # 2)) 0 == dsum (1 # 2) (fun s => nth s [1; 2; 4]%Q 0%Q) 0 (h - 0))%Q.
Proof. exact (C37_dones (1 # 2) [1; 2; 4]%Q [false; true; false] 0 eq_refl (Nat.lt_0_succ 2)). Qed.

(** The A2C runner: discounted sum of the episode's rewards, plus the discounted value of the state
    after the rollout if the episode goes on; flattened by environment. *)
Theorem C37_a2c g n k rews dones lastv : 0 < n -> rect n k rews -> rect (S n) k dones -> length lastv = k ->
  exists l, a2c_returns g k rews dones lastv = Some l /\ length l = k * n /\
    forall t e, t < n -> e < k -> exists h, horizon n (fun s => entry false dones (S s) e) t h /\
      (nth (e * n + t) l 0 == ret_spec g (fun s => entry 0 rews s e) (fun s => entry false dones (S s) e) (nth e lastv 0) t h)%Q.
Proof. exact (a2c_exact g n k rews dones lastv). Qed.
Print Assumptions C37_a2c.
Example C37_a2c_ex : exists l, a2c_returns (1 # 2) 2 rews0 (dones0 ++ [final0]) lastv0 = Some l /\ length l = 6.
Proof. destruct (C37_a2c (1 # 2) 3 2 rews0 _ lastv0 (Nat.lt_0_succ 2) Rr0 Rd1 eq_refl) as (l & A & B & _). exists l. auto. Qed.

(** They are the returns PPO2 computes with lambda = 1, whatever its value estimates. *)
Theorem C37_a2c_ppo2 g n k rews vals dones final lastv : 0 < n -> rect n k rews -> rect n k vals -> rect n k dones -> length final = k -> length lastv = k ->
  exists l, a2c_returns g k rews (dones ++ [final]) lastv = Some l /\
    Forall2 Qeq l (swap_and_flatten 0%Q k (gae_returns g 1 rews vals dones final lastv)).
Proof. exact (a2c_ppo2 g n k rews vals dones final lastv). Qed.
Print Assumptions C37_a2c_ppo2.
Example C37_a2c_ppo2_ex : exists l, a2c_returns (1 # 2) 2 rews0 (dones0 ++ [final0]) lastv0 = Some l /\
    Forall2 Qeq l (swap_and_flatten 0%Q 2 (gae_returns (1 # 2) 1 rews0 vals0 dones0 final0 lastv0)).
Proof. exact (C37_a2c_ppo2 (1 # 2) 3 2 rews0 vals0 dones0 final0 lastv0 (Nat.lt_0_succ 2) Rr0 Rv0 Rd0 eq_refl eq_refl). Qed.

(** C38: each is the inverse of the other. *)
Theorem C38_inverse low high a : (low < high)%Q -> (unscale_action low high (scale_action low high a) == a)%Q.
Proof. exact (scale_unscale low high a). Qed.
Print Assumptions C38_inverse.
Example C38_inverse_ex : (unscale_action (-3) 5 (scale_action (-3) 5 2) == 2)%Q.
Proof. exact (C38_inverse (-3) 5 2 eq_refl). Qed.
Theorem C38_inverse' low high s : (low < high)%Q -> (scale_action low high (unscale_action low high s) == s)%Q.
Proof. exact (unscale_scale low high s). Qed.
Print Assumptions C38_inverse'.
Example C38_inverse'_ex : (scale_action (-3) 5 (unscale_action (-3) 5 (1 # 2)) == 1 # 2)%Q.
Proof. exact (C38_inverse' (-3) 5 (1 # 2) eq_refl). Qed.
(** [low, high] corresponds to [-1, 1], the ends to the ends, and the order is kept. *)
Theorem C38_range low high a : (low < high)%Q -> ((low <= a /\ a <= high)%Q <-> (-1 <= scale_action low high a /\ scale_action low high a <= 1)%Q).
Proof. exact (scale_range low high a). Qed.
Print Assumptions C38_range.
Example C38_range_ex : (-1 <= scale_action (-3) 5 2 /\ scale_action (-3) 5 2 <= 1)%Q.
Proof. apply (C38_range (-3) 5 2 eq_refl). split; discriminate. Qed.
Theorem C38_ends low high : (low < high)%Q -> (scale_action low high low == -1 /\ scale_action low high high == 1)%Q.
Proof. exact (scale_ends low high). Qed.
Print Assumptions C38_ends.
Example C38_ends_ex : (scale_action (-3) 5 (-3) == -1 /\ scale_action (-3) 5 5 == 1)%Q.
Proof. exact (C38_ends (-3) 5 eq_refl). Qed.
Theorem C38_order low high a b : (low < high)%Q -> ((a < b)%Q <-> (scale_action low high a < scale_action low high b)%Q).
Proof. exact (scale_lt low high a b). Qed.
Print Assumptions C38_order.
Example C38_order_ex : (scale_action (-3) 5 1 < scale_action (-3) 5 2)%Q.
Proof. apply (C38_order (-3) 5 1 2 eq_refl). reflexivity. Qed.

(** C57: the retrace target of ACER is Q + sum of gamma^i c(t+1)...c(t+i) delta(t+i) up to the last
    step of the episode in the rollout, with c = min(1, rho). *)
Theorem C57_retrace gamma ne n rewards q_i values rho_i dones : 0 < n ->
  length rewards = ne * n -> length dones = ne * n -> length q_i = ne * n -> length rho_i = ne * n -> length values = ne * (n + 1) ->
  exists l, q_retrace rewards dones q_i values rho_i ne n gamma = Some l /\ length l = ne * n /\
  forall t e, t < n -> e < ne -> exists h, horizon n (at_batch false n dones e) t h /\
    (at_batch 0 n l e t - at_batch 0 n q_i e t ==
     retrace_sum gamma (fun s => qmin2 1 (at_batch 0 n rho_i e s))
       (fun s => at_batch 0 n rewards e s + gamma * (if at_batch false n dones e s then 0 else at_batch 0 (n + 1) values e (S s)) - at_batch 0 n q_i e s)
       t (h - t))%Q.
Proof. exact (retrace_exact gamma ne n rewards q_i values rho_i dones). Qed.
Print Assumptions C57_retrace.
Example C57_retrace_ex : exists l, q_retrace [1; 2]%Q [false; true] [1; 1]%Q [3; 4; 5]%Q [2; 1 # 2]%Q 1 2 (1 # 2) = Some l /\ length l = 2.
Proof.
  destruct (C57_retrace (1 # 2) 1 2 [1; 2]%Q [1; 1]%Q [3; 4; 5]%Q [2; 1 # 2]%Q [false; true] (Nat.lt_0_succ 1) eq_refl eq_refl eq_refl eq_refl eq_refl) as (l & A & B & _).
  exists l. auto.
Qed.

(** Splitting a batch into steps and putting it together again gives the batch, and conversely. *)
Theorem C57_batch_round_trip {A} (d : A) batch ne n sq : 0 < n -> batch_to_seq d batch ne n = Some sq -> seq_to_batch d sq = batch.
Proof. exact (batch_round_trip d batch ne n sq). Qed.
Print Assumptions C57_batch_round_trip.
Example C57_batch_round_trip_ex : seq_to_batch 0 [[1; 4]; [2; 5]; [3; 6]] = [1; 2; 3; 4; 5; 6].
Proof. exact (C57_batch_round_trip 0 [1; 2; 3; 4; 5; 6] 2 3 _ (Nat.lt_0_succ 2) eq_refl). Qed.
Theorem C57_seq_round_trip {A} (d : A) sq n ne : 0 < n -> rect n ne sq -> batch_to_seq d (seq_to_batch d sq) ne n = Some sq.
Proof. exact (seq_round_trip d sq n ne). Qed.
Print Assumptions C57_seq_round_trip.
Example C57_seq_round_trip_ex : batch_to_seq false (seq_to_batch false dones0) 2 3 = Some dones0.
Proof. exact (C57_seq_round_trip false dones0 3 2 (Nat.lt_0_succ 2) Rd0). Qed.
(** [strip] drops the last of the [n + 1] steps of every environment and nothing else. *)
Theorem C57_strip {A} (d : A) var ne n : 0 < n -> length var = ne * (n + 1) -> exists out, strip d var ne n = Some out /\ length out = ne * n /\
  forall t e, t < n -> e < ne -> nth (e * n + t) out d = nth (e * (n + 1) + t) var d.
Proof. exact (strip_layout d var ne n). Qed.
Print Assumptions C57_strip.
Example C57_strip_ex : exists out, strip 0 [1; 2; 3; 4; 5; 6] 2 2 = Some out /\ length out = 4.
Proof. destruct (C57_strip 0 [1; 2; 3; 4; 5; 6] 2 2 (Nat.lt_0_succ 1) eq_refl) as (o & A & B & _). exists o. auto. Qed.

(** C58: when a flag marks the first step of an episode, what is logged over any sequence of
    segments are the totals of the finished episodes of the whole stream, in order, however the
    stream is cut; the carried number is the total of the running one. *)
Theorem C58_logged : forall segs acc, Forall (fun s => length (fst s) = length (snd s)) segs ->
  qeq_pair (snd (logger_run acc segs), fst (logger_run acc segs)) (episode_totals acc (concat (map (fun s => combine (fst s) (snd s)) segs))).
Proof. exact logger_segments. Qed.
Print Assumptions C58_logged.
Example C58_logged_ex : qeq_pair (snd (logger_run 0 segs0), fst (logger_run 0 segs0)) (episode_totals 0 (concat (map (fun s => combine (fst s) (snd s)) segs0))).
Proof. exact (C58_logged segs0 0%Q segs0_ok). Qed.
(** ACER passes flags that mark the last step instead; then the totals are wrong. *)
Theorem C58_acer_refuted : ~ (forall segs, Forall (fun s : list Q * list bool => length (fst s) = length (snd s)) segs ->
  qeq_pair (snd (logger_run 0 segs), fst (logger_run 0 segs)) (ending_totals 0 (concat (map (fun s => combine (fst s) (snd s)) segs)))).
Proof. intros H. apply acer_wrong. apply H. repeat constructor. Qed.
Print Assumptions C58_acer_refuted.

(** C59: explained variance is at most 1, and 1 exactly when the predictions are right up to one
    common offset. *)
Theorem C59_bounds yp yt v : length yp = length yt -> explained_variance yp yt = Some v ->
  (v <= 1)%Q /\ ((v == 1)%Q <-> exists c, Forall2 (fun p t => t == p + c)%Q yp yt).
Proof. exact (ev_bounds yp yt v). Qed.
Print Assumptions C59_bounds.
Example C59_bounds_ex : exists v, explained_variance [1; 2; 3]%Q [2; 3; 5]%Q = Some v /\ (v <= 1)%Q.
Proof. eexists. split; [reflexivity|]. exact (proj1 (C59_bounds [1; 2; 3]%Q [2; 3; 5]%Q _ eq_refl eq_refl)). Qed.
(** Predicting a constant explains nothing. *)
Theorem C59_constant yp yt v c : length yp = length yt -> Forall (fun x => x == c)%Q yp -> explained_variance yp yt = Some v -> (v == 0)%Q.
Proof. exact (ev_constant yp yt v c). Qed.
Print Assumptions C59_constant.
Example C59_constant_ex : exists v, explained_variance [7; 7; 7]%Q [2; 3; 5]%Q = Some v /\ (v == 0)%Q.
Proof. eexists. split; [reflexivity|]. refine (C59_constant [7; 7; 7]%Q [2; 3; 5]%Q _ 7 eq_refl _ eq_refl). repeat constructor. Qed.
(** It is NaN exactly when the true values are all equal. *)
Theorem C59_nan yp yt : explained_variance yp yt = None <-> exists c, Forall (fun x => x == c)%Q yt.
Proof. exact (ev_nan yp yt). Qed.
Print Assumptions C59_nan.
Example C59_nan_ex : explained_variance [1; 2]%Q [3; 3]%Q = None.
Proof. apply (C59_nan [1; 2]%Q [3; 3]%Q). exists 3%Q. repeat constructor. Qed.
(** The two-dimensional variant mixes the columns: a column predicted exactly need not get 1. *)
Theorem C59_2d_refuted : ~ (forall yp yt j, nth j yp [] = nth j yt [] -> (1 # 10000000000 <= qvar (nth j yt []))%Q -> (nth j (explained_variance_2d yp yt) 0 == 1)%Q).
Proof. intros H. apply ev2d_wrong. apply H; [reflexivity|vm_compute; discriminate]. Qed.
Print Assumptions C59_2d_refuted.
