(** C103: the Atari wrappers. *)
From Coq Require Import List Arith ZArith QArith Bool.
From Verif Require Import AW_Model AW_Spec AW_Proofs AW_Demo.
Import ListNotations.
Open Scope nat_scope.

(** C103: reset of NoopResetEnv with n no-ops drawn resets the game, plays n no-ops, each followed by a reset if it ended
    the game, and answers the observation of the last of these calls; the game is not over then.  0 no-ops raise. *)
Theorem C103_noop : forall S A O (e : env S A O) noop noops s o s', noop_reset e noop noops s = Some (o, s') <->
  exists o0 s1 ps, ereset e s = Some (o0, s1) /\ noops s1 = length ps /\ ps <> [] /\ Forall (piece noop) ps /\ run e s1 (concat ps) s' /\
    exists u x, concat ps = u ++ [x] /\ obs_of x = o /\ over x = false.
Proof. intros S A O e noop. exact (noop_iff e noop). Qed.
Print Assumptions C103_noop.

(** C103: reset of FireResetEnv resets the game, plays actions 1 and 2, each followed by a reset if it ended the game, and
    answers the observation of action 2. *)
Theorem C103_fire : forall S A O (e : env S A O) one two s o s', fire_reset e one two s = Some (o, s') <->
  exists o0 p1 x p2, piece one p1 /\ piece two (x :: p2) /\ run e s (Rst o0 :: p1 ++ x :: p2) s' /\ obs_of x = o.
Proof. intros S A O e one two. exact (fire_iff e one two). Qed.
Print Assumptions C103_fire.

(** C103: so if action 2 ends the game, the last observation of the finished game is answered, not the first of the new
    one that was started. *)
Theorem C103_fire_refuted : forall S A O (e : env S A O) one two s o0 p1 o r o' s', piece one p1 -> run e s (Rst o0 :: p1 ++ [Stp two o r true; Rst o']) s' -> fire_reset e one two s = Some (o, s').
Proof. intros S A O e one two s o0 p1 o r o' s' P R. apply fire_iff. exists o0, p1, (Stp two o r true), [Rst o']. split; [exact P|]. split; [constructor|]. split; [exact R|reflexivity]. Qed.
Print Assumptions C103_fire_refuted.

(** C103: a step of EpisodicLifeEnv is the step of the game; it ends the episode if the game ends or a life is lost and
    one is left. *)
Theorem C103_life_step : forall S A O (e : env S A O) lives s l real a o r d w, life_step e lives (s, l, real) a = Some (o, r, d, w) <->
  exists d' s', estep e s a = Some (o, r, d', s') /\ w = (s', lives s', d') /\ (d = true <-> d' = true \/ (0 < lives s' < l)%Z).
Proof. intros S A O e lives. exact (life_step_iff e lives). Qed.
Print Assumptions C103_life_step.

(** C103: its reset resets the game only if the last step ended it, or there was none; otherwise, even in the middle of
    an episode, it plays one no-op. *)
Theorem C103_life_reset : forall S A O (e : env S A O) noop lives s l o w,
  (life_reset e noop lives (s, l, true) = Some (o, w) <-> exists s', ereset e s = Some (o, s') /\ w = (s', lives s', true)) /\
  (life_reset e noop lives (s, l, false) = Some (o, w) <-> exists r d s', estep e s noop = Some (o, r, d, s') /\ w = (s', lives s', false)).
Proof. intros S A O e noop lives s l o w. split; [exact (life_reset_real e noop lives s l o w)|exact (life_reset_noop e noop lives s l o w)]. Qed.
Print Assumptions C103_life_reset.

(** C103: for a caller who resets first and after each end of an episode, and if a no-op never ends a game with a life
    left, the game is never stepped after its end. *)
Theorem C103_life_legal : forall S A O (e : env S A O) noop lives, (forall s o r d s', (0 < lives s)%Z -> estep e s noop = Some (o, r, d, s') -> d = false) ->
  forall s tr s' log l real, run (life_env (recorded e) noop (fun w => lives (fst w))) ((s, []), 0%Z, true) tr (s', log, l, real) -> disciplined true tr -> legal true log.
Proof. intros S A O e noop lives. exact (life_legal e noop lives). Qed.
Print Assumptions C103_life_legal.

(** C103: if the no-op of a reset does end the game, this is forgotten: the observation of the finished game is answered,
    and the next step or reset is a step of the finished game. *)
Theorem C103_life_refuted : forall S A O (e : env S A O) noop lives s l o r s', estep e s noop = Some (o, r, true, s') -> life_reset e noop lives (s, l, false) = Some (o, (s', lives s', false)).
Proof. intros S A O e noop lives s l o r s' H. apply life_reset_noop. now exists r, true, s'. Qed.
Print Assumptions C103_life_refuted.

(** C103: a step of MaxAndSkipEnv repeats the action up to [skip] times, not beyond the end of the episode, sums the
    rewards and tells if the episode ended. *)
Theorem C103_skip : forall S A O (e : env S A O) omax skip s b a o r d s' b', skip_step e omax skip (s, b) a = Some (o, r, d, (s', b')) ->
  exists tr, run e s tr s' /\ repeats a skip tr d /\ r = fold_left Qplus (map reward_of tr) 0%Q.
Proof. intros S A O e omax. exact (step_repeats e omax). Qed.
Print Assumptions C103_skip.

(** C103: if all [skip] >= 2 calls were made the larger of the last two observations is answered. *)
Theorem C103_skip_max : forall S A O (e : env S A O) omax skip s b a u x y d s', run e s (u ++ [x; y]) s' -> repeats a skip (u ++ [x; y]) d -> length (u ++ [x; y]) = skip ->
  exists r, skip_step e omax skip (s, b) a = Some (omax (obs_of x) (obs_of y), r, d, (s', (obs_of x, obs_of y))).
Proof. intros S A O e omax. exact (skip_max e omax). Qed.
Print Assumptions C103_skip_max.

(** C103: if the episode ends two or more calls early, nothing of this step is answered, only old frames (zeros at
    first). *)
Theorem C103_skip_stale_refuted : forall S A O (e : env S A O) omax skip s b a tr d s', run e s tr s' -> repeats a skip tr d -> length tr + 2 <= skip ->
  exists r, skip_step e omax skip (s, b) a = Some (omax (fst b) (snd b), r, d, (s', b)).
Proof. intros S A O e omax. exact (skip_stale e omax). Qed.
Print Assumptions C103_skip_stale_refuted.

(** C103: if it ends one call early, the larger of the last observation and an old frame is answered. *)
Theorem C103_skip_half_refuted : forall S A O (e : env S A O) omax skip s b a u x d s', run e s (u ++ [x]) s' -> repeats a skip (u ++ [x]) d -> length (u ++ [x]) + 1 = skip ->
  exists r, skip_step e omax skip (s, b) a = Some (omax (obs_of x) (snd b), r, d, (s', (obs_of x, snd b))).
Proof. intros S A O e omax. exact (skip_half e omax). Qed.
Print Assumptions C103_skip_half_refuted.

(** C103: with skip = 1 the larger of the observation and the initial frame of zeros is answered, so a negative
    observation is lost; with skip = 0 a step raises. *)
Theorem C103_skip_one_refuted : forall S A O (e : env S A O) omax s b a x d s', run e s [x] s' -> repeats a 1 [x] d ->
  exists r, skip_step e omax 1 (s, b) a = Some (omax (fst b) (obs_of x), r, d, (s', (fst b, obs_of x))).
Proof. intros S A O e omax. exact (skip_single e omax). Qed.
Print Assumptions C103_skip_one_refuted.

Theorem C103_skip_zero_raises : forall S A O (e : env S A O) omax w a, skip_step e omax 0 w a = None.
Proof. intros S A O e omax. exact (skip_zero e omax). Qed.
Print Assumptions C103_skip_zero_raises.

(** C103: ClipRewardEnv changes the rewards alone, to their signs. *)
Theorem C103_clip : forall S A O (e : env S A O) tr s s', run (clip_env e) s tr s' ->
  exists otr, run e s otr s' /\ Forall2 (fun x y => match y with Rst o => x = Rst o | Stp a o r d => x = Stp a o (sign r) d end) tr otr.
Proof. intros S A O e. exact (clip_run e). Qed.
Print Assumptions C103_clip.

Theorem C103_sign : forall r, (0 < r -> sign r = 1)%Q /\ (r == 0 -> sign r = 0)%Q /\ (r < 0 -> sign r = (-1))%Q.
Proof. exact sign_of. Qed.
Print Assumptions C103_sign.

(** C103: FrameStack answers n copies of the first observation of an episode, and then at each step the last n of these
    and of the observations since. *)
Theorem C103_stack : forall S A O (e : env S A O) n s q0 q tr w, length q0 <= n -> Forall (fun x => exists a q r d, x = Stp a q r d) tr -> run (stack_env e n) (s, q0) (Rst q :: tr) w ->
  exists o otr s' q', w = (s', q') /\ run e s (Rst o :: otr) s' /\ q = repeat o n /\ same_but n (repeat o n) tr otr.
Proof. intros S A O e n. exact (stack_episode e n). Qed.
Print Assumptions C103_stack.

(** C103: a frame warped has the declared shape only if it was an 84 x 84 frame without colours already. *)
Theorem C103_warp_refuted : forall shape, warp_shape shape = Some warp_declared <-> shape = [84; 84].
Proof. exact warp_iff. Qed.
Print Assumptions C103_warp_refuted.

(** C103: a lazy stack reads as the concatenation of its frames, however often it is read. *)
Theorem C103_lazy : forall (O B : Type) (concat concat' : list O -> B) frames, fst (force concat (inl frames)) = concat frames
  /\ snd (force concat (inl frames)) = inr (concat frames) /\ forall x, fst (force concat' (snd (force concat x))) = fst (force concat x).
Proof. intros O B concat concat' frames. split; [reflexivity|]. split; [reflexivity|]. now intros [f|b]. Qed.
Print Assumptions C103_lazy.
