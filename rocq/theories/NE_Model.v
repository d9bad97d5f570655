(** Model of FNEAT (neorl/hybrid/fneat.py) and RNEAT (neorl/hybrid/rneat.py): evaluation of genomes in the
    optimization environment (Env_Model), serial and parallel, the tracked best and the history.

    A genome gives a network [net_new g]; activating a network is an arbitrary function that may change
    its state (RNEAT) or not (FNEAT).  The NEAT library is an arbitrary function [lib] from the
    fitnesses assigned so far (one list per generation) to the next list of genomes, or [None] when it
    ends the run (fitness threshold).  Config files, checkpoints, pickling of the winner and printing are
    not modelled.  An exception, or running out of [fuel], is [None]. *)
From Coq Require Import List Arith ZArith QArith Qround Bool.
From Verif Require Import Base Space_Model Opt_Model Env_Model.
Import ListNotations.
Open Scope nat_scope.

(** make_env.py:110-122: the keys of the decoding table are integers; a float finds one if it is equal. *)
Definition index_of (q : Q) : option nat :=
  match int_of q with Some z => if (0 <=? z)%Z then Some (Z.to_nat z) else None | None => None end.
(** The output of a network as an action. *)
Definition net_action (sp : aspace) (out : list Q) : option action :=
  match sp with
  | ABox => Some (ActBox out)
  | AMulti _ => option_map ActMulti (traverse (fun _ q => index_of q) 0 out)
  | ADiscrete _ => None
  end.
(** A sample of the action space as an input of a network. *)
Definition as_input (o : first_obs) : list Q :=
  match o with
  | ObsAction (ActBox a) => a
  | ObsAction (ActMulti ix) => map (fun i => inject_Z (Z.of_nat i)) ix
  | ObsAction (ActOne i) => [inject_Z (Z.of_nat i)]
  | ObsState s => s
  end.

(** best_fit with best_x ([None]: -inf), history['global_fitness'], history['local_fitness']. *)
Record search : Type := Search { s_best : option (Q * list val); s_global : list Q; s_local : list Q }.

Section Neat.
  Context {G N : Type} (net_new : G -> N) (activate : N -> list Q -> N * list Q) (lib : list (list Q) -> option (list G))
          (fit : list val -> Q) (act_sample : nat -> action) (obs_sample : nat -> list Q) (randint : nat -> Z -> Z -> Z) (c : econf)
          (sp : aspace) (x0 : option (list Q)).
  Notation env_step := (env_step fit obs_sample randint c).
  Notation env_reset := (env_reset act_sample obs_sample c).

  (** fneat.py:67-70, 348-351: with x0 the environment is not reset. *)
  Definition first_input (st : estate) : option (list Q * estate) :=
    match x0 with
    | Some x => Some (x, st)
    | None => let* r := env_reset st in Some (as_input (fst r), snd r)
    end.

  (** [rew > best]. *)
  Definition improves (rew : Q) (best : option Q) : bool := match best with None => true | Some b => Qltb b rew end.

  (** fneat.py:78-109: the loop for one genome.  Result: the last reward, local_fit, the tracked best, the
      environment and the individuals evaluated. *)
  Fixpoint serial_loop (fuel : nat) (n : N) (ob : list Q) (st : estate) (loc : option Q) (cnt : nat) (best : option (Q * list val))
    : option (Q * Q * option (Q * list val) * estate * list (list val)) :=
    match fuel with
    | 0 => None
    | S fuel' =>
        let no := activate n ob in
        let* a := net_action sp (snd no) in
        let* p := env_step sp st a in let '(r, st') := p in
        let rew := r_reward r in
        let loc' := match loc with Some l => if Qltb l rew then rew else l | None => rew end in
        let cnt' := if improves rew loc then 0 else S cnt in
        let best' := if improves rew (option_map fst best) then Some (rew, r_x r) else best in
        if r_done r || (cnt' =? ec_len c) then Some (rew, loc', best', st', [r_x r])
        else
          let* z := serial_loop fuel' (fst no) (r_state r) st' (Some loc') cnt' best' in let '(rew2, loc2, best2, st2, log) := z in
          Some (rew2, loc2, best2, st2, r_x r :: log)
    end.

  (** fneat.py:346-375 NEATWorker.work: the loop in a worker; only the last reward, local_fit and the last
      individual are returned. *)
  Fixpoint worker_loop (fuel : nat) (n : N) (ob : list Q) (st : estate) (loc : option Q) : option (Q * Q * list val * list (list val)) :=
    match fuel with
    | 0 => None
    | S fuel' =>
        let no := activate n ob in
        let* a := net_action sp (snd no) in
        let* p := env_step sp st a in let '(r, st') := p in
        let rew := r_reward r in
        let loc' := match loc with Some l => if Qltb l rew then rew else l | None => rew end in
        if r_done r then Some (rew, loc', r_x r, [r_x r])
        else
          let* z := worker_loop fuel' (fst no) (r_state r) st' (Some loc') in let '(rew2, loc2, x2, log) := z in
          Some (rew2, loc2, x2, r_x r :: log)
    end.

  (** The history gets the tracked best and the best of this genome, with the user's sign
      (fneat.py:97-107, 408-420). *)
  Definition note (s : search) (best : option (Q * list val)) (loc : Q) : search :=
    Search best (s_global s ++ [match best with Some b => as_max (ec_mode c) (fst b) | None => 0%Q end]) (s_local s ++ [as_max (ec_mode c) loc]).

  (** fneat.py:63-109 eval_genomes: fitnesses, environment, search state, individuals evaluated. *)
  Fixpoint eval_serial (fuel : nat) (gs : list G) (st : estate) (s : search) : option (list Q * estate * search * list (list val)) :=
    match gs with
    | [] => Some ([], st, s, [])
    | g :: gs' =>
        let* f := first_input st in
        let* z := serial_loop fuel (net_new g) (fst f) (snd f) None 0 (s_best s) in let '(rew, loc, best, st', log) := z in
        let* y := eval_serial fuel gs' st' (note s best loc) in let '(fs, st2, s2, log2) := y in
        Some (rew :: fs, st2, s2, log ++ log2)
    end.

  (** fneat.py:397-421 ParallelEvaluator.evaluate: every worker gets a pickled copy of the object and hence
      of the environment, the parent's environment does not change. *)
  Fixpoint eval_parallel (fuel : nat) (gs : list G) (st : estate) (s : search) : option (list Q * estate * search * list (list val)) :=
    match gs with
    | [] => Some ([], st, s, [])
    | g :: gs' =>
        let* f := first_input st in
        let* z := worker_loop fuel (net_new g) (fst f) (snd f) None in let '(rew, loc, x, log) := z in
        let best := if improves rew (option_map fst (s_best s)) then Some (rew, x) else s_best s in
        let* y := eval_parallel fuel gs' st (note s best loc) in let '(fs, st2, s2, log2) := y in
        Some (rew :: fs, st2, s2, log ++ log2)
    end.

  (** neat.Population.run: at most [k] generations. *)
  Fixpoint generations (eval : list G -> estate -> search -> option (list Q * estate * search * list (list val)))
           (k : nat) (past : list (list Q)) (st : estate) (s : search) : option (list (list Q) * estate * search * list (list val)) :=
    match k with
    | 0 => Some (past, st, s, [])
    | S k' =>
        match lib past with
        | None => Some (past, st, s, [])
        | Some gs =>
            let* y := eval gs st s in let '(fs, st', s', log) := y in
            let* z := generations eval k' (past ++ [fs]) st' s' in let '(past2, st2, s2, log2) := z in
            Some (past2, st2, s2, log ++ log2)
        end
    end.

  (** fneat.py:114-221 evolute with 1 core or more: best_x, best_fit, the history, the fitnesses handed to
      NEAT, the environment, the individuals evaluated.  Without any genome best_x does not exist. *)
  Definition neat_evolute (parallel : bool) (fuel ngen : nat) (st : estate)
    : option (list val * Q * list Q * list Q * list (list Q) * estate * list (list val)) :=
    if match x0 with Some x => negb (length x =? length (ec_space c)) | None => false end then None
    else
      let* z := generations (if parallel then eval_parallel fuel else eval_serial fuel) ngen [] st (Search None [] []) in
      let '(fits, st', s, log) := z in
      let* b := s_best s in
      Some (snd b, as_max (ec_mode c) (fst b), s_global s, s_local s, fits, st', log).
End Neat.
