(** Environments made by cmd_util: C128. *)
From Coq Require Import ZArith String List Permutation.
From Verif Require Import CU_Model CU_Spec CU_Proofs.
Import ListNotations.
Open Scope list_scope.
Open Scope Z_scope.

(** C128: make_vec_env makes n environments. Number i is made from the id or the class, it and its action space are seeded with
    seed + start_index + i, it is monitored in the file of that rank, and wrapped. The files of these ranks are new and empty, the
    directory exists, and no other file changes. *)
Theorem C128_made : forall c n f, 0 < n -> usable c f (ranks n (start_index c)) ->
  exists f' es w, make_vec_env c n f = Some (f', es, w) /\ Z.of_nat (length es) = n
    /\ (forall i, (i < Z.to_nat n)%nat -> nth_error es i = Some (expected c f (start_index c + Z.of_nat i)))
    /\ forall p, ((exists r, start_index c <= r < start_index c + n /\ file_of c f r = Some p) -> f' p = Some (File []))
       /\ (monitor_dir c = Some p -> f' p = Some Dir)
       /\ (monitor_dir c <> Some p -> (forall r, start_index c <= r < start_index c + n -> file_of c f r <> Some p) -> f' p = f p).
Proof. exact made. Qed.
Print Assumptions C128_made.

(** C128: different ranks have different seeds and different files. *)
Theorem C128_distinct : forall c f r r', r <> r' ->
  (seed c <> None -> seed_of c r <> seed_of c r') /\ (monitor_dir c <> None -> file_of c f r <> file_of c f r').
Proof. exact distinct. Qed.
Print Assumptions C128_distinct.

(** C128: in whatever order processes make them, environments and files are the same. *)
Theorem C128_order : forall c n f order, 0 < n -> usable c f (ranks n (start_index c)) -> Permutation order (ranks n (start_index c)) ->
  exists f1 es1 w f2 es2, make_vec_env c n f = Some (f1, es1, w) /\ init_all c order f = Some (f2, es2, w)
    /\ (forall p, f1 p = f2 p) /\ es2 = map (expected c f) order.
Proof. exact any_order. Qed.
Print Assumptions C128_order.

(** C128: logs of earlier environments with the same directory and rank are lost: a second call empties all files of the first. *)
Theorem C128_again_refuted : forall c n f, 0 < n -> usable c f (ranks n (start_index c)) ->
  exists f' es w, make_vec_env c n f = Some (f', es, w) /\ forall r p, start_index c <= r < start_index c + n -> file_of c f r = Some p -> f' p = Some (File []).
Proof.
  exact (fun c n f N U => match made c n f N U with
    | ex_intro _ f' (ex_intro _ es (ex_intro _ w (conj E (conj _ (conj _ F))))) =>
        ex_intro _ f' (ex_intro _ es (ex_intro _ w (conj E (fun r p R H => proj1 (F p) (ex_intro _ r (conj R H)))))) end).
Qed.
Print Assumptions C128_again_refuted.

(** C128: env_kwargs are ignored when the environment is given by its id: with any others the same environments are made, with one
    warning for each. *)
Theorem C128_kwargs_refuted : forall i s st md wc k k' n f f' es w, 0 < n ->
  make_vec_env (Config (Id i) s st md wc k) n f = Some (f', es, w) ->
  exists w', make_vec_env (Config (Id i) s st md wc k') n f = Some (f', es, w') /\ (k' <> [] -> Z.of_nat w' = n) /\ (k' = [] -> w' = 0%nat).
Proof. exact kwargs_ignored. Qed.
Print Assumptions C128_kwargs_refuted.

(** C128: no environments raise IndexError. *)
Theorem C128_none_raises : forall c n f, n <= 0 -> make_vec_env c n f = None.
Proof. exact none_raises. Qed.
Print Assumptions C128_none_raises.

(** C128: an empty monitor_dir and one that is a file raise. *)
Theorem C128_directory_raises : forall c n f d, 0 < n -> monitor_dir c = Some d -> d = EmptyString \/ (exists e, f d = Some (File e)) -> make_vec_env c n f = None.
Proof. exact dir_raises. Qed.
Print Assumptions C128_directory_raises.

(** C128: make_atari_env uses processes exactly if asked to and the number of environments is not 1. *)
Theorem C128_atari : forall n u, atari_kind n u = SubprocVecEnv <-> u = true /\ n <> 1.
Proof. exact atari_kinds. Qed.
Print Assumptions C128_atari.

(** C128: its environments are seeded by rank, but their action spaces are not seeded. *)
Theorem C128_atari_seeds : forall id sd dir rank f f' e, atari_init id sd dir rank f = Some (f', e) ->
  origin e = Made id /\ seeded e = Some (sd + rank) /\ space_seeded e = None.
Proof. exact atari_made. Qed.
Print Assumptions C128_atari_seeds.

(** C128: make_mujoco_env in different processes of MPI gives the generators different seeds, but the environments the same seed and the
    same log file. *)
Theorem C128_processes_refuted : forall s d r r', 0 <= r -> 0 <= r' -> r <> r' -> 0 <= s -> s + 10000 * r < 2 ^ 32 -> s + 10000 * r' < 2 ^ 32 ->
  exists g g' p, make_mujoco_env (Installed true r) s (Some d) = Some (g, s, p) /\ make_mujoco_env (Installed true r') s (Some d) = Some (g', s, p) /\ g <> g'.
Proof. exact mujoco_same. Qed.
Print Assumptions C128_processes_refuted.

(** C128: it raises AttributeError if mpi4py is installed and nobody has imported mpi4py.MPI, and TypeError if the logger has no directory. *)
Theorem C128_mujoco_raises : forall s d r m, make_mujoco_env (Installed false r) s d = None /\ make_mujoco_env m s None = None.
Proof. exact mujoco_raises. Qed.
Print Assumptions C128_mujoco_raises.
