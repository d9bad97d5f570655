(** neorl/evolu/ts.py.  Decoding of grid parameters is part of the arbitrary [fit]; positions are in
    the encoded numeric space.  ncores is 1 (asserted by the constructor). *)
From Coq Require Import List Arith ZArith QArith Bool.
From Verif Require Import Base Space_Model Opt_Model Pop_Model Swarm_Model.
Import ListNotations.
Open Scope nat_scope.

Inductive tmode : Type := Swap | Perturb.
(** A key of tabu_structure: a pair of values (swap) or a coordinate (perturb). *)
Inductive tmove : Type := MSwap (a b : nat) | MCoord (i : nat).
(** tabu_structure[move]. *)
Record tent : Type := Ent { te_move : tmove; te_time : nat; te_mv : Q; te_freq : nat; te_pen : ext }.

(** itertools.combinations(l, 2). *)
Fixpoint pairs {A} (l : list A) : list (A * A) :=
  match l with [] => [] | a :: r => map (fun b => (a, b)) r ++ pairs r end.

(** ts.py:262-268. *)
Definition ts_structure (sm : tmode) (n : nat) : list tent :=
  map (fun mv => Ent mv 0 0 0 (Fin 0))
    match sm with
    | Swap => map (fun ab => MSwap (fst ab) (snd ab)) (pairs (seq 1 n))
    | Perturb => map MCoord (seq 0 n)
    end.

(** [list.index(v)]. *)
Fixpoint index_of (v : Q) (l : list Q) : option nat :=
  match l with [] => None | x :: r => if Qeq_bool x v then Some 0 else option_map S (index_of v r) end.

(** Exchange of two cells. *)
Definition exchange {A} (l : list A) (i j : nat) : option (list A) :=
  let* a := nth_error l i in let* b := nth_error l j in Some (set_nth (set_nth l i b) j a).

Section T.
Context (m : mode) (fit : list Q -> Q) (ds : list dimn) (sm : tmode) (w : Q) (tenure : nat).

(** UpdateTabu, ts.py:195-212; [u], [k] are the draws of random.uniform and random.randint. *)
Definition ts_update (u : Q) (k : nat) (x : list Q) (mv : tmove) : option (list Q) :=
  match mv with
  | MSwap a b => let* i := index_of (qnat a) x in let* j := index_of (qnat b) x in exchange x i j
  | MCoord i => let* d := nth_error ds i in let* _ := nth_error x i in Some (set_nth x i (gen_coord d u k))
  end.

(** ts.py:274-290: all neighbours are built and evaluated.  Result: the updated entries and the
    candidates (in swap mode the chosen one is recomputed, which gives the same list). *)
Definition ts_scan (du : nat -> Q) (dk : nat -> nat) (x : list Q) (es : list tent) : option (list (tent * list Q)) :=
  traverse (fun i e =>
    let* c := ts_update (du i) (dk i) x (te_move e) in
    let f := pt_score m fit ds c in
    Some (Ent (te_move e) (te_time e) f (te_freq e) (Fin (f + qnat (te_freq e) * w)%Q), c)) 0 es.

(** [min(tabu_structure, key=...)] and [np.argmin]: the first smallest entry. *)
Fixpoint ext_argmin_aux (i bi : nat) (bv : ext) (l : list ext) : nat :=
  match l with
  | [] => bi
  | x :: r => if ext_ltb x bv then ext_argmin_aux (S i) i x r else ext_argmin_aux (S i) bi bv r
  end.
Definition ext_argmin (l : list ext) : option nat :=
  match l with [] => None | x :: r => Some (ext_argmin_aux 1 0 x r) end.

Definition limit : ext := Fin (inject_Z (10 ^ 11)).

(** The loop [while True], ts.py:295-327: the entry chosen (None: no admissible move) and whether it
    was tabu and taken by aspiration.  Fuel: an entry is set to infinity at every turn. *)
Fixpoint ts_choose (fuel iter : nat) (bf : Q) (es : list tent) : option (list tent * option (nat * bool)) :=
  match fuel with
  | 0 => None
  | S fuel' =>
      let* i := ext_argmin (map te_pen es) in
      let* e := nth_error es i in
      if ext_ltb limit (te_pen e) then Some (es, None)
      else if te_time e <? iter then Some (es, Some (i, false))
      else if Qltb (te_mv e) bf then Some (es, Some (i, true))
      else ts_choose fuel' iter bf (set_nth es i (Ent (te_move e) (te_time e) (te_mv e) (te_freq e) PInf))
  end.

(** A move made: which entry, by aspiration or not, and the new position. *)
Record tstep : Type := TStep { ts_i : nat; ts_asp : bool; ts_to : list Q }.

(** Ghosts: [tt_trail] the move of each generation, [tt_log] the points given to the user's function. *)
Record ts_state : Type := TsSt {
  tt_pos : list Q; tt_best : list Q * Q; tt_es : list tent; tt_iter : nat;
  tt_local : list Q; tt_global : list Q; tt_trail : list (option tstep); tt_log : list (list Q) }.

(** One generation, ts.py:270-346. *)
Definition ts_gen (du : nat -> nat -> Q) (dk : nat -> nat -> nat) (l : nat) (st : ts_state) : option ts_state :=
  let* ec := ts_scan (du l) (dk l) (tt_pos st) (tt_es st) in
  let es := map fst ec in
  let* last := nth_error es (length es - 1) in
  let log := tt_log st ++ map (fun p => pt_arg ds (snd p)) ec in
  let* '(es1, ch) := ts_choose (S (length es)) (tt_iter st) (snd (tt_best st)) es in
  let* '(pos, best, es2, iter, f, step, log) :=
    match ch with
    | None => Some (tt_pos st, tt_best st, es1, tt_iter st, te_mv last, None, log)
    | Some (i, asp) =>
        let* e := nth_error es1 i in
        let* ec1 := nth_error ec i in
        let c := snd ec1 in
        if asp
        then let f := pt_score m fit ds c in
             Some (c, (c, f), set_nth es1 i (Ent (te_move e) (te_time e) (te_mv e) (S (te_freq e)) (te_pen e)),
                   S (tt_iter st), f, Some (TStep i true c), log ++ [pt_arg ds c])
        else let f := te_mv e in
             Some (c, (if Qltb f (snd (tt_best st)) then (c, f) else tt_best st),
                   set_nth es1 i (Ent (te_move e) (tt_iter st + tenure) (te_mv e) (S (te_freq e)) (te_pen e)),
                   S (tt_iter st), f, Some (TStep i false c), log)
    end in
  let best := if Qltb f (snd best) then (pos, f) else best in
  Some (TsSt pos best es2 iter (tt_local st ++ [as_min m f]) (tt_global st ++ [as_min m (snd best)])
          (tt_trail st ++ [step]) log).

Record ts_result : Type := TsRes {
  tr_x : list Q; tr_y : Q; tr_hl : list Q; tr_hg : list Q; tr_trail : list (option tstep); tr_log : list (list Q) }.

(** TS.evolute, ts.py:214-370, from the start position [x0] (given by the user, a random permutation
    of 1..n in swap mode, init_sample in perturb mode: all are instances).  With ngen = 0 the result
    attribute does not exist. *)
Definition ts_evolute (ngen : nat) (du : nat -> nat -> Q) (dk : nat -> nat -> nat) (x0 : list Q) : option ts_result :=
  if negb (length x0 =? length ds) then None else
  let s0 := TsSt x0 (x0, pt_score m fit ds x0) (ts_structure sm (length ds)) 1 [] [] [] [pt_arg ds x0] in
  let* st := gens (ts_gen du dk) 0 ngen s0 in
  if ngen =? 0 then None else
  Some (TsRes (fst (tt_best st)) (as_min m (snd (tt_best st))) (tt_local st) (tt_global st) (tt_trail st) (tt_log st)).
End T.
