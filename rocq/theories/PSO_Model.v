(** Model of Particle Swarm Optimization: neorl/evolu/pso.py (class PSO).

    Positions are vectors in the encoded numeric space; decoding of grid variables
    (pso.py:153-156) is part of the arbitrary fitness function.  Serial and parallel evaluation
    (pso.py:384-433) call the fitness on the same points and update the bests in the same
    order; both are the one loop below. *)
From Coq Require Import List Arith ZArith QArith Bool.
From Verif Require Import Base Space_Model Opt_Model.
Import ListNotations.
Open Scope nat_scope.

Inductive speed_mech : Type := Constric | Timew | Globw.

(** Parameters (pso.py:43-101).  [pp_w] is the constriction factor computed at line 72 (an
    irrational number in general: arbitrary here).  [pp_farr]: one of the arrays [self.low],
    [self.up] (lines 100-101) is a floating-point array, which happens as soon as one bound of
    the space is written as a float. *)
Record pso_par : Type := PsoPar {
  pp_dims : list dimn; pp_npar : nat; pp_c1 : Q; pp_c2 : Q; pp_mech : speed_mech; pp_w : Q;
  pp_farr : bool }.

(** Draws of one particle update, per coordinate. *)
Record pdraw : Type := PDraw {
  pd_r1 : nat -> Q; pd_r2 : nat -> Q; pd_w : nat -> Q; pd_move : nat -> Q; pd_pick : nat -> nat }.

(** A particle with its personal best (entries of the swarm dictionary, [local_pos] and
    [local_fit]) and, ghost, the points at which it was evaluated. *)
Record particle : Type := Par {
  pa_pos : list Q; pa_vel : list Q; pa_fit : Q; pa_lpos : list Q; pa_lfit : Q;
  pa_log : list (list Q) }.

(** [choices.remove(q)] on a list of Python ints: numeric equality. *)
Definition zremove_num (q : Q) (l : list Z) : option (list Z) :=
  if Qeq_bool q (inject_Z (trunc q)) then zremove (trunc q) l else None.

Section PSO.
Context (expf : Q -> Q) (m : mode) (fit : list Q -> Q) (p : pso_par).

(** pso.py:241-293, one coordinate of UpdateParticle: new position and new speed.  The
    division [swm_fit/local_fit] by zero (line 264) takes the except branch (Python numbers; a
    NumPy divisor would give inf). *)
Definition pso_coord (w swm_fit lfit : Q) (dr : pdraw) (i : nat) (d : dimn) (x v lp sp : Q)
  : option (Q * Q) :=
  let cog := (pp_c1 p * pd_r1 dr i * (lp - x))%Q in
  let soc := (pp_c2 p * pd_r2 dr i * (sp - x))%Q in
  let v' :=
    match pp_mech p with
    | Constric => (pp_w p * (v + cog + soc))%Q
    | Timew => (w * v + cog + soc)%Q
    | Globw => ((if Qeq_bool lfit 0 then pd_w dr i else (11 # 10) - swm_fit / lfit) * v + cog + soc)%Q
    end in
  if d_int d then
    if Qltb (pd_move dr i) (1 / (1 + expf (- v'))) then
      if (trunc (d_lo d) =? trunc (d_hi d))%Z then Some (inject_Z (trunc (d_lo d)), v')
      else if pp_farr p then None     (* range() on a float64: TypeError *)
      else
        let* l := zremove_num x (zrange (trunc (d_lo d)) (trunc (d_hi d) + 1)) in
        let* z := choice l (pd_pick dr i) in Some (inject_Z z, v')
    else Some (x, v')
  else
    let x' := (x + v')%Q in
    let x' := if Qltb (d_hi d) x' then d_hi d else x' in
    let x' := if Qltb x' (d_lo d) then d_lo d else x' in
    Some (x', v').

Fixpoint pso_coords (w swm_fit lfit : Q) (dr : pdraw) (i : nat) (ds : list dimn) (x v lp sp : list Q)
  : option (list Q * list Q) :=
  match ds, x, v, lp, sp with
  | [], _, _, _, _ => Some ([], [])
  | d :: ds', a :: x', b :: v', c :: lp', e :: sp' =>
      let* '(y, u) := pso_coord w swm_fit lfit dr i d a b c e in
      let* '(ys, us) := pso_coords w swm_fit lfit dr (S i) ds' x' v' lp' sp' in
      Some (y :: ys, u :: us)
  | _, _, _, _, _ => None
  end.

(** pso.py:145-160 fit_worker. *)
Definition pso_arg (x : list Q) : list Q := clip_vec (map (fun d => (d_lo d, d_hi d)) (pp_dims p)) x.
Definition pso_score (x : list Q) : Q := as_max m (fit (pso_arg x)).

(** Swarm, swarm best position and fitness, best score of each generation, inertia weight. *)
Record pso_state : Type := PsoSt {
  ps_swarm : list particle; ps_pos : list Q; ps_fit : Q; ps_scores : list Q; ps_w : Q }.

(** pso.py:162-218 InitSwarm (speed is 0.1 times the position), pso.py:373-375 swarm best:
    first particle of the stable descending sort, i.e. the first maximum. *)
Definition pso_particle (x : list Q) : particle :=
  Par x (map (fun q => (1 # 10) * q)%Q x) (pso_score x) x (pso_score x) [pso_arg x].
Definition pso_start (init : list (list Q)) : option pso_state :=
  let swarm := map pso_particle init in
  match sort_desc pa_fit swarm with
  | [] => None
  | b :: _ => Some (PsoSt swarm (pa_pos b) (pa_fit b) [] (9 # 10)%Q)
  end.

(** pso.py:334-349 GenSwarm. *)
Definition pso_move (st : pso_state) (drs : nat -> pdraw) (i : nat) (a : particle) : option particle :=
  let* '(x, v) := pso_coords (ps_w st) (ps_fit st) (pa_lfit a) (drs i) 0 (pp_dims p)
                    (pa_pos a) (pa_vel a) (pa_lpos a) (ps_pos st) in
  Some (Par x v 0 (pa_lpos a) (pa_lfit a) (pa_log a)).

(** pso.py:416-429 (394-410 in parallel): evaluation, personal best, swarm best. *)
Fixpoint pso_eval (pos : list Q) (best : Q) (swarm : list particle) : list particle * (list Q * Q) :=
  match swarm with
  | [] => ([], (pos, best))
  | a :: r =>
      let f := pso_score (pa_pos a) in
      let better := Qltb (pa_lfit a) f in
      let a' := Par (pa_pos a) (pa_vel a) f (if better then pa_pos a else pa_lpos a)
                    (if better then f else pa_lfit a) (pa_log a ++ [pso_arg (pa_pos a)]) in
      let '(pos', best') := if better && Qltb best f then (pa_pos a, f) else (pos, best) in
      let '(r', pb) := pso_eval pos' best' r in (a' :: r', pb)
  end.

(** pso.py:380-453, generation number [g] (from 1) of [ngen]; [ws] is the optional external
    inertia vector (kwargs 'w'). *)
Definition pso_gen (ngen : nat) (ws : option (list Q)) (drs : nat -> nat -> pdraw) (g : nat) (st : pso_state)
  : option pso_state :=
  let* moved := traverse (pso_move st (drs g)) 0 (ps_swarm st) in
  let '(swarm, (pos, best)) := pso_eval (ps_pos st) (ps_fit st) moved in
  let* w :=
    match pp_mech p with
    | Timew =>
        match ws with
        | None => Some ((9#10) - ((9#10) - (4#10)) * inject_Z (Z.of_nat (g * pp_npar p)) / inject_Z (Z.of_nat (ngen * pp_npar p)))%Q
        | Some l => if length l =? ngen then nth_error l (g - 1) else None
        end
    | _ => Some (ps_w st)
    end in
  let* '(_, s) := argmax (map pa_fit swarm) in
  Some (PsoSt swarm pos best (ps_scores st ++ [s]) w).

(** pso.py:351-522 evolute. With ngen = 0 the returned attribute does not exist. *)
Record pso_result : Type := PsoRes {
  pr_x : list Q; pr_y : Q; pr_local : list Q; pr_global : list Q; pr_swarm : list particle }.

Definition pso_evolute (ngen : nat) (ws : option (list Q)) (drs : nat -> nat -> pdraw) (init : list (list Q))
  : option pso_result :=
  if negb (length init =? pp_npar p) then None else
  if ngen =? 0 then None else
  let* st0 := pso_start init in
  let* st := gens (pso_gen ngen ws drs) 1 ngen st0 in
  let scores := map (as_max m) (ps_scores st) in
  Some (PsoRes (ps_pos st) (as_max m (ps_fit st)) scores
          (accumulate (match m with Mmin => qmin2 | Mmax => qmax2 end) scores) (ps_swarm st)).
End PSO.
