(** neorl/evolu/hho.py.  Conventions as in Swarm_Model.v: draws are arbitrary rationals, joblib
    keeps the order of the hawks, decoding of grid parameters is part of the arbitrary [fit]. *)
From Coq Require Import List Arith ZArith QArith Qabs Bool.
From Verif Require Import Base Space_Model Opt_Model Pop_Model Swarm_Model.
Import ListNotations.
Open Scope nat_scope.

(** Draws of one hawk: escape energy, strategy, perch choice, random hawk (reduced modulo the
    number of hawks), two factors of the exploration, jump strength, Levy step of each coordinate,
    ensure_discrete of the two dives and of the end of the generation. *)
Record hdraw : Type := HDraw { h_e : Q; h_r : Q; h_q : Q; h_hawk : nat; h_r1 : Q; h_r2 : Q; h_j : Q; h_levy : nat -> Q;
  h_vdy : vdraw; h_vdz : vdraw; h_vd : vdraw }.

Section H.
Context (expf : Q -> Q) (m : mode) (fit : list Q -> Q) (ds : list dimn) (mt : imethod) (n : nat).

(** [self.hawk_positions.mean(0)], one coordinate. *)
Definition col_mean (ps : list (list Q)) (j : nat) : Q :=
  (fold_right Qplus 0 (map (fun r => nth j r 0%Q) ps) / qnat (length ps))%Q.

(** exploration, hho.py:325-346. *)
Definition hho_explore (d : hdraw) (rab : list Q) (ps : list (list Q)) (x : list Q) : option (list Q) :=
  let* rh := nth_error ps (h_hawk d mod n) in
  if Qltb (h_q d) (1#2)
  then coords (fun j _ xj => let* a := nth_error rh j in Some (a - h_r1 d * Qabs (a - 2 * h_r2 d * xj))%Q) 0 ds x
  else coords (fun j dm _ => let* b := nth_error rab j in
                 Some ((b - col_mean ps j) - h_r1 d * ((d_hi dm - d_lo dm) * h_r2 d + d_lo dm))%Q) 0 ds x.

(** surprise_pounce, hho.py:348-376. *)
Definition hho_pounce (d : hdraw) (E : Q) (rab : list Q) (x : list Q) : option (list Q) :=
  if Qltb (Qabs E) (1#2)
  then coords (fun j _ xj => let* b := nth_error rab j in Some (b - E * Qabs (b - xj))%Q) 0 ds x
  else let J := (2 * (1 - h_j d))%Q in
       coords (fun j _ xj => let* b := nth_error rab j in Some ((b - xj) - E * Qabs (J * b - xj))%Q) 0 ds x.

(** team_rapid_dives, hho.py:378-444: returns the new row and the points evaluated. *)
Definition hho_dive (a : Q) (d : hdraw) (E : Q) (rab : list Q) (f : Q) (ps : list (list Q)) (x : list Q)
  : option (list Q * list (list Q)) :=
  let J := (2 * (1 - h_j d))%Q in
  let base j xj := if Qle_bool (1#2) (Qabs E) then xj else col_mean ps j in
  let* v := coords (fun j _ xj => let* b := nth_error rab j in Some (b - E * Qabs (J * b - base j xj))%Q) 0 ds x in
  let* y := settle expf a mt (h_vdy d) ds v in
  if Qltb (pt_score m fit ds y) f then Some (y, [pt_arg ds y]) else
  let* v' := coords (fun j _ xj => let* b := nth_error rab j in Some (b - E * Qabs (J * b - base j xj) + h_levy d j)%Q) 0 ds x in
  let* z := settle expf a mt (h_vdz d) ds v' in
  Some (if Qltb (pt_score m fit ds z) f then z else x, [pt_arg ds y; pt_arg ds z]).

(** update_hawks, hho.py:283-323, one hawk; the matrix is updated in place, dives are logged. *)
Definition hho_hawk (E1 a : Q) (rab : list Q) (fits : list Q) (dr : nat -> hdraw) (i : nat) (s : list (list Q) * list (list Q))
  : option (list (list Q) * list (list Q)) :=
  let '(ps, dv) := s in
  let d := dr i in
  let* x := nth_error ps i in
  let E := (E1 * (2 * h_e d - 1))%Q in
  if Qle_bool 1 (Qabs E) then let* v := hho_explore d rab ps x in Some (set_nth ps i v, dv)
  else if Qle_bool (1#2) (h_r d) then let* v := hho_pounce d E rab x in Some (set_nth ps i v, dv)
  else let* f := nth_error fits i in
       let* '(v, new) := hho_dive a d E rab f ps x in Some (set_nth ps i v, dv ++ new).

(** hho.py:131-138. *)
Definition hho_E1 (ngen t : nat) (ke : option (list Q)) : option Q :=
  match ke with
  | None => Some (2 * (1 - qnat t / qnat ngen))%Q
  | Some le => if length le =? ngen then nth_error le t else None
  end.

(** Positions, rabbit, last evaluated population with its scores, best score of each generation;
    ghosts: points evaluated at the start of the generations, points evaluated by the dives of the
    earlier generations and of the last one. *)
Record hho_state : Type := HhoSt {
  hh_pos : list (list Q); hh_rab : option (list Q * Q); hh_last : list (list Q * Q); hh_local : list Q;
  hh_log : list (list Q); hh_old : list (list Q); hh_new : list (list Q) }.

(** One generation, hho.py:128-192. *)
Definition hho_gen (ngen : nat) (ke : option (list Q)) (drs : nat -> nat -> hdraw) (t : nat) (st : hho_state) : option hho_state :=
  let a := anneal1 t ngen in
  let* E1 := hho_E1 ngen t ke in
  let fits := map (pt_score m fit ds) (hh_pos st) in
  let pop := combine (hh_pos st) fits in
  let* '(_, lo) := argmin fits in
  let rab := track (hh_rab st) pop in
  let* '(rx, _) := rab in
  let* '(ps, dv) := gens (hho_hawk E1 a rx fits (drs t)) 0 n (hh_pos st, []) in
  let* pos := rows_loop (fun i _ x => settle expf a mt (h_vd (drs t i)) ds x) n ps in
  Some (HhoSt pos rab pop (hh_local st ++ [as_min m lo]) (hh_log st ++ map (pt_arg ds) (hh_pos st)) (hh_old st ++ hh_new st) dv).

Record hho_result : Type := HhoRes {
  hr_x : list Q; hr_y : Q; hr_hl : list Q; hr_hg : list Q; hr_pop : list (list Q); hr_pf : list Q;
  hr_log : list (list Q); hr_dives : list (list Q); hr_last_dives : list (list Q) }.

(** HHO.evolute, hho.py:94-225; with ngen = 0 best_global_fitness is unset. *)
Definition hho_evolute (ngen : nat) (ke : option (list Q)) (drs : nat -> nat -> hdraw) (init : list (list Q)) : option hho_result :=
  let* st := gens (hho_gen ngen ke drs) 0 ngen (HhoSt init None [] [] [] [] []) in
  let* '(x, f) := hh_rab st in
  Some (HhoRes x (as_min m f) (hh_local st) (accumulate (match m with Mmin => qmin2 | Mmax => qmax2 end) (hh_local st))
          (map fst (hh_last st)) (map (fun p => as_min m (snd p)) (hh_last st)) (hh_log st) (hh_old st) (hh_new st)).
End H.
