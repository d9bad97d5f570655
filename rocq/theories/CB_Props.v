(** Theorems C75 about the callbacks of the RL algorithms. *)
From Coq Require Import List Arith ZArith QArith Bool.
From Verif Require Import Base CB_Model CB_Spec CB_Proofs CB_Every CB_Eval CB_Total CB_Demo.
Import ListNotations.
Open Scope nat_scope.

(** C75: in a list of callbacks every member is called at every step, in the order of the list and
    exactly as if it were used alone; if all of them answer True or False, the list stops the
    training exactly when some member does. *)
Theorem C75_list ans ev l tss c' out : calls ans ev (Chain 0 l) tss = Some (c', out) ->
  exists runs, Forall2 (fun c r => calls ans ev c tss = Some r) l runs /\
    forall k o, nth_error out k = Some o ->
      exists os, Forall2 (fun r x => nth_error (snd r) k = Some x) runs os /\ fst o = flat_map fst os /\
        (Forall (fun x => snd x <> Nothing) os -> (snd o = Stop <-> exists x, In x os /\ snd x = Stop)).
Proof. exact (chain_spec ans ev l tss c' out). Qed.
Print Assumptions C75_list.

(** C75: a list raises exactly when some member would raise alone. *)
Theorem C75_list_total ans ev n l tss : (exists r, calls ans ev (Chain n l) tss = Some r) <-> Forall (fun c => exists r, calls ans ev c tss = Some r) l.
Proof. exact (chain_total ans ev n l tss). Qed.
Print Assumptions C75_list_total.

(** C75: callbacks with positive checkpoint frequencies and thresholds only directly under an
    EvalCallback never raise, however they are nested. *)
Theorem C75_total ans ev c tss : sound c -> exists c' out, calls ans ev c tss = Some (c', out) /\ sound c'.
Proof. exact (sound_total ans ev c tss). Qed.
Print Assumptions C75_total.

(** C75: a checkpoint callback saves at exactly every save_freq-th call, over all learns, and never
    stops the training. *)
Theorem C75_checkpoint ans ev id f n tss : f <> 0 -> exists out, calls ans ev (Checkpoint id f n) tss = Some (Checkpoint id f (n + length tss), out) /\
  forall j ts, nth_error tss j = Some ts -> nth_error out j = Some (if S (n + j) mod f =? 0 then [ESave id ts] else [], Go).
Proof. exact (checkpoint_calls ans ev id f n tss). Qed.
Print Assumptions C75_checkpoint.

(** C75: with e environments the files of a first learn are those of e*save_freq, 2*e*save_freq, ...
    timesteps. *)
Theorem C75_checkpoint_files ans ev id f e n : 1 <= f ->
  exists out, calls ans ev (Checkpoint id f 0) (steps_of e n) = Some (Checkpoint id f n, out) /\
    flat_map fst out = map (fun i => ESave id (e * (f * S i))) (seq 0 (n / f)) /\ Forall (fun o => snd o = Go) out.
Proof. exact (checkpoint_regular ans ev id f e n). Qed.
Print Assumptions C75_checkpoint_files.

(** C75: that a second learn keeps the checkpoints of the first is refuted: num_timesteps starts
    again from zero and the file of the same number is overwritten. *)
Theorem C75_overwrite_refuted : exists f n1 n2 c1 c2 out1 out2 ts, 1 <= f /\ (forall ans ev, calls ans ev (Checkpoint 0 f 0) (steps_of 1 n1) = Some (c1, out1) /\
  calls ans ev c1 (steps_of 1 n2) = Some (c2, out2)) /\ In (ESave 0 ts) (flat_map fst out1) /\ In (ESave 0 ts) (flat_map fst out2).
Proof. exact overwrite_bad. Qed.
Print Assumptions C75_overwrite_refuted.

(** C75: EveryNTimesteps calls its child exactly at those steps at which num_timesteps has grown by
    at least n_steps since the last such call (or the start), passes on what the child answers, and
    does nothing at the other steps. *)
Theorem C75_every ans ev k last0 n child tss c' out : calls ans ev (Every k last0 n child) tss = Some (c', out) ->
  exists sel child' cout, length sel = length tss /\ calls ans ev child (select sel tss) = Some (child', cout) /\ out = spread sel cout /\
    forall j ts, nth_error tss j = Some ts -> nth_error sel j = Some (last (select (firstn j sel) (firstn j tss)) last0 + k <=? ts).
Proof. exact (every_run ans ev k last0 n child tss c' out). Qed.
Print Assumptions C75_every.

(** C75: in a learn from zero with e environments that is every p-th step with p = ceil(n_steps/e). *)
Theorem C75_every_regular ans ev k e n child c' out : 1 <= k -> 1 <= e -> calls ans ev (Every k 0 0 child) (steps_of e n) = Some (c', out) ->
  let p := (k + e - 1) / e in
  exists child' cout, calls ans ev child (steps_of (e * p) (n / p)) = Some (child', cout) /\
    forall j, j < n -> nth_error out j = if S j mod p =? 0 then nth_error cout (S j / p - 1) else Some idle.
Proof. exact (every_regular ans ev k e n child c' out). Qed.
Print Assumptions C75_every_regular.

(** C75: that EveryNTimesteps works in every learn is refuted for the second one: its memory of the
    last call is not reset with num_timesteps, and a second learn that is not longer than the first
    never calls the child. *)
Theorem C75_every_second_refuted ans ev k e n1 n2 child c' out : 1 <= k -> 1 <= e -> n2 <= n1 -> calls ans ev (Every k 0 0 child) (steps_of e n1 ++ steps_of e n2) = Some (c', out) ->
  forall j, n1 <= j -> j < n1 + n2 -> nth_error out j = Some idle.
Proof. exact (every_second ans ev k e n1 n2 child c' out). Qed.
Print Assumptions C75_every_second_refuted.

(** C75: an EvalCallback evaluates at exactly every eval_freq-th call, reports and saves a new best
    model and calls callback_on_new_best exactly when the mean reward exceeds that of all earlier
    evaluations, answers what that child answers, and remembers the greatest mean reward. *)
Theorem C75_eval ans ev id f child tss c' out : 1 <= f -> (forall c thr n, child = Some c -> c <> StopAbove thr n) ->
  calls ans ev (Eval id f 0 None child) tss = Some (c', out) ->
  exists sel cout best child', length sel = length tss /\ c' = Eval id f (length tss) best child' /\
    (forall j, j < length tss -> evaluates f j -> exists b, best = Some b /\ (ev id (S j) <= b)%Q) /\
    (forall b, best = Some b -> exists j, j < length tss /\ evaluates f j /\ b = ev id (S j)) /\
    child_calls ans ev child (select sel tss) cout /\
    forall j ts, nth_error tss j = Some ts -> exists x, nth_error (spread sel cout) j = Some x /\
      (nth_error sel j = Some true <-> record (fun i => ev id (S i)) f j) /\
      (~ evaluates f j -> nth_error out j = Some idle) /\
      (evaluates f j -> ~ record (fun i => ev id (S i)) f j -> nth_error out j = Some ([EEval id ts (ev id (S j))], Go)) /\
      (record (fun i => ev id (S i)) f j -> nth_error out j = Some (EEval id ts (ev id (S j)) :: EBest id ts :: fst x, snd x)).
Proof. exact (eval_spec ans ev id f child tss c' out). Qed.
Print Assumptions C75_eval.

(** C75: with StopTrainingOnRewardThreshold as its child the training stops at the first evaluation
    that reaches the threshold, and only there. *)
Theorem C75_threshold ans ev id f thr tss c' out : 1 <= f -> calls ans ev (Eval id f 0 None (Some (StopAbove thr 0))) tss = Some (c', out) ->
  forall j, j < length tss -> (stopped_at out j <-> evaluates f j /\ (thr <= ev id (S j))%Q /\ forall i, i < j -> evaluates f i -> (ev id (S i) < thr)%Q).
Proof. exact (threshold_spec ans ev id f thr tss c' out). Qed.
Print Assumptions C75_threshold.

(** C75: that the threshold also stops a second learn is refuted: the best mean reward is kept, the
    child is asked at a new best only, and a second learn whose evaluations all reach the threshold
    runs to its end. *)
Theorem C75_threshold_second_refuted : exists ev thr c1 out1 c2 out2, calls (fun _ _ => Go) ev (Eval 0 1 0 None (Some (StopAbove thr 0))) (steps_of 1 3) = Some (c1, out1) /\ stopped_at out1 2 /\
  calls (fun _ _ => Go) ev c1 (steps_of 1 3) = Some (c2, out2) /\ (forall n, 3 <= n -> (thr <= ev 0%nat n)%Q) /\ forall o, In o out2 -> snd o = Go.
Proof. exact threshold_second_bad. Qed.
Print Assumptions C75_threshold_second_refuted.

(** C75: StopTrainingOnRewardThreshold used on its own, in a list or under EveryNTimesteps raises at
    its first call. *)
Theorem C75_misplaced_raises ans ev thr n ts tss : calls ans ev (StopAbove thr n) (ts :: tss) = None /\
  (forall m l, In (StopAbove thr n) l -> calls ans ev (Chain m l) (ts :: tss) = None) /\
  (forall m la, calls ans ev (Every ts la m (StopAbove thr n)) (la + ts :: tss) = None).
Proof. exact (misplaced_raises ans ev thr n ts tss). Qed.
Print Assumptions C75_misplaced_raises.

(** C75: that one False in a list is enough is refuted when a later callback returns None: the list
    then answers None and the training goes on. *)
Theorem C75_mask_refuted : exists ans ev l tss c' out e1, calls ans ev (Chain 0 l) tss = Some (c', out) /\
  calls ans ev (User 0 0) tss = Some (User 0 1, [(e1, Stop)]) /\ In (User 0 0) l /\ forall o, In o out -> snd o <> Stop.
Proof. exact mask_bad. Qed.
Print Assumptions C75_mask_refuted.

(** C75: on_training_start reaches every callback of the user once, in the order of the tree; the other
    signals (rollout start and end, training end) reach exactly those that are not inside an
    EveryNTimesteps or EvalCallback. *)
Theorem C75_signals s c : notify s c = map (fun id => ESignal id s) (match s with TrainingStart => users c | _ => outer c end).
Proof. exact (notify_users s c). Qed.
Print Assumptions C75_signals.
