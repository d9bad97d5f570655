(** C104: the replay buffer and the episode statistics of ACER. *)
From Coq Require Import List Arith ZArith QArith Qround Bool.
From Verif Require Import AB_Model AB_Spec AB_Proofs AB_Demo.
Import ListNotations.
Open Scope nat_scope.

(** C104: after any number of rollouts, a sample has for each environment its own row, whole, of one of the last [size]
    rollouts. *)
Theorem C104_sample : forall (X : Type) size (l : list (list X)) n_env idx, 0 < size -> l <> [] -> Forall (fun x => length x = n_env) l -> length idx = n_env ->
  Forall (fun k => k < Nat.min size (length l)) idx ->
  exists b out, puts (init size) l = Some b /\ get b idx = Some out /\ Forall2 (fun e x => exists ro, In ro (lastn size l) /\ nth_error ro e = Some x) (seq 0 n_env) out.
Proof. intros X. exact (@buffer_reads X). Qed.
Print Assumptions C104_sample.

(** C104: every combination of such rows can be drawn. *)
Theorem C104_sample_all : forall (X : Type) size (l : list (list X)) out, 0 < size -> l <> [] ->
  Forall2 (fun e x => exists ro, In ro (lastn size l) /\ nth_error ro e = Some x) (seq 0 (length out)) out ->
  exists b idx, puts (init size) l = Some b /\ Forall (fun k => k < Nat.min size (length l)) idx /\ length idx = length out /\ get b idx = Some out.
Proof. intros X. exact (@buffer_reaches X). Qed.
Print Assumptions C104_sample_all.

(** C104: a buffer smaller than one rollout raises when it is first used. *)
Theorem C104_small_raises : forall (X : Type) size n_steps (x : list X) l, size < n_steps -> puts (init (places size n_steps)) (x :: l) = None.
Proof. intros X size n_steps x l H. unfold places. rewrite Nat.div_small by exact H. exact (puts_zero x l). Qed.
Print Assumptions C104_small_raises.

(** C104: with n rollouts stored has_atleast answers yes for fewer than (n + 1) * n_steps frames: also for up to
    n_steps - 1 frames that are not there; and for as many as (size + 1) * n_steps frames never, so that replay never
    starts. *)
Theorem C104_atleast_refuted : forall (X : Type) size (l : list (list X)) n_steps frames, 0 < size -> 0 < n_steps ->
  exists b, puts (init size) l = Some b /\ (has_atleast b n_steps frames = true <-> frames < (Nat.min size (length l) + 1) * n_steps).
Proof. intros X. exact (@atleast_iff X). Qed.
Print Assumptions C104_atleast_refuted.

(** C104: over any rollouts there is a log of all episodes that ended, whose part of each environment is exactly its
    finished episodes in order, however its steps were cut into rollouts, and the statistics are of the last [cap] of
    it; unfinished episodes are kept for the next rollout. *)
Theorem C104_episodes : forall cap n rollouts, Forall (fun ro => length ro = n) rollouts ->
  exists log : list (nat * list Q), lens (feeds cap n rollouts) = lastn cap (map (fun x => length (snd x)) log) /\ sums (feeds cap n rollouts) = lastn cap (map (fun x => total (snd x)) log) /\
    forall i, (i < n -> nth i (partial (feeds cap n rollouts)) [] = snd (episodes [] (stream_of i rollouts)) /\ of_env i log = fst (episodes [] (stream_of i rollouts))) /\ (n <= i -> of_env i log = []).
Proof. intros cap n rollouts W. destruct (logged_all cap n rollouts W) as (log & _ & A & B & C). exists log. split; [exact A|]. split; [exact B|exact C]. Qed.
Print Assumptions C104_episodes.

(** C104: with one environment the statistics do not depend on how its steps are cut into rollouts. *)
Theorem C104_cut : forall cap r1 r2, Forall (fun ro => length ro = 1) r1 -> Forall (fun ro => length ro = 1) r2 -> stream_of 0 r1 = stream_of 0 r2 -> feeds cap 1 r1 = feeds cap 1 r2.
Proof. exact one_env_cut. Qed.
Print Assumptions C104_cut.

(** C104: with two they do. *)
Theorem C104_cut_refuted : (forall i, i < 2 -> stream_of i cut_a = stream_of i cut_b) /\ lens (feeds 40 2 cut_a) = [2; 1] /\ lens (feeds 40 2 cut_b) = [1; 2].
Proof. exact demo_cut. Qed.
Print Assumptions C104_cut_refuted.

(** C104: the means are those of the kept episodes, 0 if there is none. *)
Theorem C104_means : forall s, (sums s = [] -> mean_reward s = 0%Q) /\ (sums s <> [] -> (mean_reward s * inject_Z (Z.of_nat (length (sums s))) == total (sums s))%Q) /\
  (lens s = [] -> mean_length s = 0%Q) /\ (lens s <> [] -> (mean_length s * inject_Z (Z.of_nat (length (lens s))) == inject_Z (Z.of_nat (list_sum (lens s))))%Q).
Proof. exact means_are. Qed.
Print Assumptions C104_means.

(** C104: an observation of two or more dimensions is stored as bytes: a value from 0 to below 256 is rounded down, so
    it is kept only if it is whole; images scaled to [0, 1] become 0 except where they are 1. *)
Theorem C104_bytes_refuted : forall v, (0 <= v)%Q -> (v < 256)%Q -> as_byte v = inject_Z (Qfloor v) /\ (as_byte v == v <-> exists z, v == inject_Z z)%Q.
Proof. exact byte_is. Qed.
Print Assumptions C104_bytes_refuted.
