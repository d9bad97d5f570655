(** neorl/evolu/bat.py.  Draws are arbitrary rationals, exp an arbitrary function, joblib keeps the
    order of the bats; decoding of grid parameters is part of the arbitrary [fit]. *)
From Coq Require Import List Arith ZArith QArith Bool.
From Verif Require Import Base Space_Model Opt_Model Pop_Model Swarm_Model.
Import ListNotations.
Open Scope nat_scope.

(** Draws of one bat in stage 1: Levy jump of each coordinate, frequency draw, the four indices,
    ensure_discrete. *)
Record bdraw1 : Type := BDraw1 { b1_levy : nat -> Q; b1_u : Q; b1_idx : nat * nat * nat * nat; b1_vd : vdraw }.
(** Draws of one bat in stages 2 and 3: the test, the deviation of each coordinate in [-1,1]. *)
Record bdraw2 : Type := BDraw2 { b2_u : Q; b2_dev : nat -> Q; b2_vd : vdraw }.

Section B.
Context (expf : Q -> Q) (m : mode) (fit : list Q -> Q) (ds : list dimn) (mt : imethod) (n : nat).

(** Constructor arguments (bat.py:55-97); [bp_levy]: the flag is truthy (the default 'False' is a
    non-empty string, hence truthy). *)
Record bat_par : Type := BatPar { bp_fmin : Q; bp_fmax : Q; bp_r0 : Q; bp_alpha : Q; bp_gamma : Q; bp_levy : bool }.
Context (p : bat_par).

(** Stage 1A, bat.py:268-282, one bat.  The line with the second frequency starts with a unary
    plus, i.e. is a statement of its own without effect; the draws it uses are not modelled. *)
Definition bat_row1 (ngen l : nat) (a : Q) (best : list Q) (dr : nat -> bdraw1) (i : nat) (ps : list (list Q)) (x : list Q)
  : option (list Q) :=
  let d := dr i in
  let* x1 := if bp_levy p then coords (fun j _ xj => Some (xj + b1_levy d j)%Q) 0 ds x else Some x in
  let ps1 := set_nth ps i x1 in
  let f1 := (((bp_fmin p - bp_fmax p) * qnat l / qnat ngen + bp_fmax p) * b1_u d)%Q in
  let '(d0, d1, d2, d3) := b1_idx d in
  let* betas := sample (seq 0 n) [d0; d1; d2; d3] in
  match betas with
  | i0 :: i1 :: _ =>
      let* r0 := nth_error ps1 i0 in
      let* r1 := nth_error ps1 i1 in
      let* v := coords (fun j _ _ => let* bj := nth_error best j in
                           let* u := nth_error r0 j in let* w := nth_error r1 j in
                           Some (bj + f1 * (u - w))%Q) 0 ds x1 in
      settle expf a mt (b1_vd d) ds v
  | _ => None
  end.

(** Stages 2A and 3A, bat.py:294-299 and 311-316: with [go] the bat jumps around the best. *)
Definition bat_row2 (a s : Q) (go : Q -> bool) (best : list Q) (dr : nat -> bdraw2) (i : nat) (ps : list (list Q)) (x : list Q)
  : option (list Q) :=
  let d := dr i in
  let* v := if go (b2_u d) then coords (fun j _ _ => let* bj := nth_error best j in Some (bj + s * b2_dev d j)%Q) 0 ds x
            else Some x in
  settle expf a mt (b2_vd d) ds v.

(** Positions, xbest, fbest (None: inf), loudness, pulse rate, fitness of the last evaluation,
    histories; ghost log of the points evaluated after the initial population. *)
Record bat_state : Type := BatSt {
  bs_pos : list (list Q); bs_x : list Q; bs_f : option Q; bs_A : Q; bs_r : Q; bs_fits : list Q;
  bs_local : list Q; bs_global : list Q; bs_As : list Q; bs_rs : list Q; bs_seen : list (list Q) }.

(** Stages 1B, 2B, 3B (bat.py:286-290): evaluation, selection (145-151), [<=] update.  Returns
    positions, fitness values, best of this evaluation, new xbest and fbest. *)
Definition bat_eval (pos : list (list Q)) (x : list Q) (f : option Q) : option (list Q * Q * list Q * Q) :=
  let fits := map (pt_score m fit ds) pos in
  let* '(i, f1) := argmin fits in
  let* x1 := nth_error pos i in
  let better := match f with None => true | Some f0 => Qle_bool f1 f0 end in
  Some (fits, f1, if better then x1 else x, match f with Some f0 => if better then f1 else f0 | None => f1 end).

(** One generation, bat.py:261-345. *)
Definition bat_gen (ngen : nat) (d1 : nat -> nat -> bdraw1) (d2 d3 : nat -> nat -> bdraw2) (l : nat) (st : bat_state)
  : option bat_state :=
  let a := anneal1 l ngen in
  let* pos1 := rows_loop (bat_row1 ngen l a (bs_x st) (d1 l)) n (bs_pos st) in
  let* '(_, f1, x1, b1) := bat_eval pos1 (bs_x st) (bs_f st) in
  let* pos2 := rows_loop (bat_row2 a (bs_A st) (fun u => Qltb (bs_r st) u) x1 (d2 l)) n pos1 in
  let* '(_, f2, x2, b2) := bat_eval pos2 x1 (Some b1) in
  let* pos3 := rows_loop (bat_row2 a (bs_r st) (fun u => Qltb u (bs_A st)) x2 (d3 l)) n pos2 in
  let* '(fits, f3, x3, b3) := bat_eval pos3 x2 (Some b2) in
  let lo := qmin2 (qmin2 f1 f2) f3 in
  let up := Qle_bool lo b3 in
  let A := if up then (bp_alpha p * bs_A st)%Q else bs_A st in
  let r := if up then (bp_r0 p * (1 - expf (- bp_gamma p * qnat l)))%Q else bs_r st in
  Some (BatSt pos3 x3 (Some b3) A r fits (bs_local st ++ [as_min m lo]) (bs_global st ++ [as_min m b3])
          (bs_As st ++ [A]) (bs_rs st ++ [r])
          (bs_seen st ++ map (pt_arg ds) pos1 ++ map (pt_arg ds) pos2 ++ map (pt_arg ds) pos3)).

Record bat_result : Type := BatRes {
  br_x : list Q; br_y : Q; br_hl : list Q; br_hg : list Q; br_As : list Q; br_rs : list Q; br_pop : list (list Q); br_pf : list Q;
  br_init : list (list Q); br_seen : list (list Q) }.

(** BAT.evolute, bat.py:227-386; [A0] is the loudness the object has when called (a second call
    goes on with the value the first one left).  ngen = 0: the returned attributes are unset. *)
Definition bat_evolute (A0 : Q) (ngen : nat) (d1 : nat -> nat -> bdraw1) (d2 d3 : nat -> nat -> bdraw2) (init : list (list Q))
  : option bat_result :=
  let* '(i, _) := argmin (map (pt_score m fit ds) init) in
  let* x := nth_error init i in
  if ngen =? 0 then None else
  let* st := gens (bat_gen ngen d1 d2 d3) 0 ngen (BatSt init x None A0 (bp_r0 p) [] [] [] [] [] []) in
  let* y := bs_f st in
  Some (BatRes (bs_x st) (as_min m y) (bs_local st) (bs_global st) (bs_As st) (bs_rs st) (bs_pos st) (map (as_min m) (bs_fits st))
          (map (pt_arg ds) init) (bs_seen st)).
End B.
