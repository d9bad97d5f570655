(** neorl/evolu/woa.py, ssa.py, mfo.py and jaya.py.  Positions are rows of numbers in the encoded
    space; fitness values are exact; joblib is an order-preserving map; decoding of grid
    parameters is part of the arbitrary [fit]; printing is left out. *)
From Coq Require Import List Arith ZArith QArith Qround Qabs Bool.
From Verif Require Import Base Space_Model Opt_Model Pop_Model.
Import ListNotations.
Open Scope nat_scope.

(** [1 - k*(1/ngen)]: the annealed coefficient given to the discrete transformation
    (woa.py:258, ssa.py:256, mfo.py:232, jaya.py:235). *)
Definition anneal1 (k ngen : nat) : Q := (1 - inject_Z (Z.of_nat k) * (1 / inject_Z (Z.of_nat ngen)))%Q.
Definition qnat (k : nat) : Q := inject_Z (Z.of_nat k).

Section Trig.
(** math.exp and math.cos(2*pi*.). *)
Context (expf cosf : Q -> Q).
Context (m : mode) (fit : list Q -> Q) (ds : list dimn) (mt : imethod).

(** * WOA *)
(** Draws of UpdateWhales for one whale: r1, r2, the draw of l, p, the random whale of each
    coordinate ([math.floor(nwhales*random.random())], reduced below nwhales), and those of
    ensure_discrete. *)
Record wdraw : Type := WDraw { w_r1 : Q; w_r2 : Q; w_l : Q; w_p : Q; w_idx : nat -> nat; w_vd : vdraw }.

(** One coordinate, woa.py:205-219: explore around a random whale, encircle the best, or spiral. *)
Definition woa_coord (n : nat) (b A C l p : Q) (idx : nat -> nat) (best : list Q) (ps : list (list Q)) (j : nat) (x : Q)
  : option Q :=
  if Qltb p (1 # 2) then
    if Qle_bool 1 (Qabs A) then
      let* row := nth_error ps (idx j mod n) in
      let* xr := nth_error row j in
      Some (xr - A * Qabs (C * xr - x))%Q
    else
      let* bj := nth_error best j in Some (bj - A * Qabs (C * bj - x))%Q
  else let* bj := nth_error best j in Some (Qabs (bj - x) * expf (b * l) * cosf l + bj)%Q.

(** UpdateWhales, woa.py:194-222, one whale.  A row read through X_rand is the matrix row itself;
    within one row the coordinates not yet written are read, so the row before the loop is used. *)
Definition woa_row (n : nat) (b a fac alpha : Q) (best : list Q) (dr : nat -> wdraw) (i : nat) (ps : list (list Q)) (x : list Q)
  : option (list Q) :=
  let d := dr i in
  let A := (2 * a * w_r1 d - a)%Q in
  let C := (2 * w_r2 d)%Q in
  let l := ((fac - 1) * w_l d + 1)%Q in
  let* v := coords (fun j _ xj => woa_coord n b A C l (w_p d) (w_idx d) best ps j xj) 0 ds x in
  settle expf alpha mt (w_vd d) ds v.

(** The schedules of [a] and [fac], woa.py:260-274 ([ngen] entries are required of the [fac]
    argument, which is also looked up, and checked, when only [a] is given). *)
Definition woa_a (a0 : Q) (ngen k : nat) (ka kfac : option (list Q)) : option Q :=
  match ka with
  | None => Some (a0 - qnat k * (a0 / qnat ngen))%Q
  | Some la => match kfac with
               | None => None
               | Some lf => if length lf =? ngen then nth_error la k else None
               end
  end.
Definition woa_fac (ngen k : nat) (kfac : option (list Q)) : option Q :=
  match kfac with
  | None => Some (-1 + qnat k * (-1 / qnat ngen))%Q
  | Some lf => if length lf =? ngen then nth_error lf k else None
  end.

Definition woa_move (n : nat) (a0 b : Q) (ngen : nat) (ka kfac : option (list Q)) (drs : nat -> nat -> wdraw)
    (k : nat) (best : list Q) (ps : list (list Q)) : option (list (list Q)) :=
  let* a := woa_a a0 ngen k ka kfac in
  let* fac := woa_fac ngen k kfac in
  rows_loop (woa_row n b a fac (anneal1 k ngen) best (drs k)) n ps.

(** WOA.evolute, woa.py:225-344. *)
Definition woa_evolute (n : nat) (a0 b : Q) (ngen : nat) (ka kfac : option (list Q)) (drs : nat -> nat -> wdraw)
    (init : list (list Q)) : option pop_result :=
  pop_evolute m fit ds (woa_move n a0 b ngen ka kfac drs) 0 ngen init.

(** * SSA *)
(** Draws for one salp: c2, c3 for each coordinate, and those of ensure_discrete. *)
Record sdraw2 : Type := SDraw2 { s_c2 : nat -> Q; s_c3 : nat -> Q; s_vd : vdraw }.
Inductive c1_arg : Type := C1None | C1Scalar (q : Q) | C1List (l : list Q).

(** The coefficient c1, ssa.py:258-266. *)
Definition ssa_c1 (ngen l : nat) (c1 : c1_arg) : option Q :=
  match c1 with
  | C1None => Some (2 * expf (- ((4 * qnat l / qnat ngen) * (4 * qnat l / qnat ngen))))%Q
  | C1Scalar q => Some q
  | C1List cs => if length cs =? ngen then nth_error cs (l - 1) else None
  end.

(** UpdateSalps, ssa.py:193-216, one salp: leaders (first half) move around the best position,
    followers to the middle between themselves and their (already moved) predecessor. *)
Definition ssa_row (n : nat) (c1r alpha : Q) (best : list Q) (dr : nat -> sdraw2) (i : nat) (ps : list (list Q)) (x : list Q)
  : option (list Q) :=
  let d := dr i in
  let* v := if 2 * i <? n
            then coords (fun j dm _ => let* bj := nth_error best j in
                           let step := (c1r * ((d_hi dm - d_lo dm) * s_c2 d j + d_lo dm))%Q in
                           Some (if Qltb (s_c3 d j) (1 # 2) then bj + step else bj - step)%Q) 0 ds x
            else let* prev := nth_error ps (i - 1) in
                 coords (fun j _ xj => let* pj := nth_error prev j in Some ((xj + pj) / 2)%Q) 0 ds x in
  settle expf alpha mt (s_vd d) ds v.

Definition ssa_move (n ngen : nat) (c1 : c1_arg) (drs : nat -> nat -> sdraw2) (l : nat) (best : list Q) (ps : list (list Q))
  : option (list (list Q)) :=
  let* c1r := ssa_c1 ngen l c1 in
  rows_loop (ssa_row n c1r (anneal1 l ngen) best (drs l)) n ps.

(** SSA.evolute, ssa.py:219-333. *)
Definition ssa_evolute (n ngen : nat) (c1 : c1_arg) (drs : nat -> nat -> sdraw2) (init : list (list Q)) : option pop_result :=
  pop_evolute m fit ds (ssa_move n ngen c1 drs) 1 ngen init.

(** * MFO *)
(** Python's [round] (half to even). *)
Definition py_round (q : Q) : Z :=
  let f := Qfloor q in
  match Qcompare (q - inject_Z f) (1 # 2) with
  | Lt => f
  | Gt => (f + 1)%Z
  | Eq => if Z.even f then f else (f + 1)%Z
  end.
(** mfo.py:233. *)
Definition flame_no (n ngen gen : nat) : nat :=
  Z.to_nat (py_round (qnat n - qnat gen * ((qnat n - 1) / (qnat ngen + 1)))).

(** Draws for one moth: one per coordinate, and those of ensure_discrete. *)
Record mdraw : Type := MDraw { m_t : nat -> Q; m_vd : vdraw }.

(** State: moths, best of the best, flames and previous generation as (position, fitness). *)
Record mfo_state : Type := MfoSt {
  mf_pos : list (list Q); mf_best : option (list Q * Q); mf_flames : list (list Q * Q);
  mf_prev : list (list Q * Q); mf_local : list Q; mf_global : list Q; mf_log : list (list Q) }.

(** Moving one moth towards its flame, mfo.py:297-319. *)
Definition mfo_row (b r alpha : Q) (fno : nat) (flames : list (list Q * Q)) (dr : nat -> mdraw) (i : nat) (x : list Q)
  : option (list Q) :=
  let d := dr i in
  let* '(s, _) := nth_error flames (if i <=? fno then i else fno) in
  let* v := coords (fun j _ xj => let* sj := nth_error s j in
               let t := ((r - 1) * m_t d j + 1)%Q in
               Some (Qabs (sj - xj) * expf (b * t) * cosf t + sj)%Q) 0 ds x in
  settle expf alpha mt (m_vd d) ds v.

Definition mfo_r (ngen gen : nat) (kr : option (list Q)) : option Q :=
  match kr with
  | None => Some (-1 + qnat gen * (-1 / qnat ngen))%Q
  | Some l => if length l =? ngen then nth_error l (gen - 1) else None
  end.

(** One generation, mfo.py:230-338: evaluate, track the best, update the flames from the moths
    (first generation) or from the previous generation and the old flames, then move.
    np.argsort's order of equal fitness values is taken to be stable. *)
Definition mfo_gen (n : nat) (b : Q) (ngen : nat) (kr : option (list Q)) (drs : nat -> nat -> mdraw) (gen : nat) (st : mfo_state)
  : option mfo_state :=
  let fits := map (pt_score m fit ds) (mf_pos st) in
  let pop := combine (mf_pos st) fits in
  let best := track (mf_best st) pop in
  let flames := if gen =? 1 then sort_asc snd pop
                else firstn n (sort_asc snd (mf_prev st ++ mf_flames st)) in
  let* '(_, score) := nth_error flames 0 in
  let* r := mfo_r ngen gen kr in
  let* pos := traverse (mfo_row b r (anneal1 gen ngen) (flame_no n ngen gen) flames (drs gen)) 0 (mf_pos st) in
  let* '(_, bf) := best in
  Some (MfoSt pos best flames pop (mf_local st ++ [as_min m score]) (mf_global st ++ [as_min m bf])
          (mf_log st ++ map (pt_arg ds) (mf_pos st))).

(** MFO.evolute, mfo.py:184-374 (the flames before the first generation are not read).  The
    returned last population is the previous one, i.e. the last evaluated one. *)
Definition mfo_evolute (n : nat) (b : Q) (ngen : nat) (kr : option (list Q)) (drs : nat -> nat -> mdraw) (init : list (list Q))
  : option pop_result :=
  let* st := gens (mfo_gen n b ngen kr drs) 1 ngen (MfoSt init None [] [] [] [] []) in
  let* '(bx, bf) := mf_best st in
  Some (PopRes bx (as_min m bf) (mf_local st) (mf_global st) (map fst (mf_prev st)) (map (fun p => as_min m (snd p)) (mf_prev st))
          (mf_log st)).

(** * JAYA *)
(** Draws for one individual: r1, r2 for each coordinate, and those of ensure_discrete. *)
Record jdraw : Type := JDraw { j_r1 : nat -> Q; j_r2 : nat -> Q; j_vd : vdraw }.

(** State: positions, their scores (maximised), the best and worst scores with the row their
    position refers to (Best_pos and Worst_pos are views of rows of [pos], jaya.py:227,230). *)
Record jaya_state : Type := JayaSt {
  ja_pos : list (list Q); ja_fits : list Q; ja_best : option (nat * Q); ja_worst : option (nat * Q);
  ja_local : list Q; ja_scores : list Q; ja_last : list (list Q) * list Q; ja_log : list (list Q) }.

(** The two updates in the loops jaya.py:224-230 and 261-267, for row [i] with score [f]. *)
Definition jaya_best1 (b : option (nat * Q)) (i : nat) (f : Q) : option (nat * Q) :=
  match b with None => Some (i, f) | Some (j, s) => if Qltb s f then Some (i, f) else Some (j, s) end.
Definition jaya_worst1 (b : option (nat * Q)) (i : nat) (f : Q) : option (nat * Q) :=
  match b with None => Some (i, f) | Some (j, s) => if Qltb f s then Some (i, f) else Some (j, s) end.
Fixpoint jaya_scan (upd1 : option (nat * Q) -> nat -> Q -> option (nat * Q)) (i : nat) (fs : list Q) (b : option (nat * Q))
  : option (nat * Q) :=
  match fs with [] => b | f :: r => jaya_scan upd1 (S i) r (upd1 b i f) end.

(** jaya.py:239-250, one individual. *)
Definition jaya_row (alpha : Q) (bx wx : list Q) (dr : nat -> jdraw) (i : nat) (x : list Q) : option (list Q) :=
  let d := dr i in
  let* v := coords (fun j _ xj => let* bj := nth_error bx j in let* wj := nth_error wx j in
                      Some (xj + j_r1 d j * (bj - Qabs xj) - j_r2 d j * (wj - Qabs xj))%Q) 0 ds x in
  settle expf alpha mt (j_vd d) ds v.

(** jaya.py:255-258: row by row, keep the new position when strictly better. *)
Definition jaya_keep (new old : list Q * Q) : list Q * Q := if Qltb (snd old) (snd new) then new else old.

(** One generation, jaya.py:234-287. *)
Definition jaya_gen (ngen : nat) (drs : nat -> nat -> jdraw) (gen : nat) (st : jaya_state) : option jaya_state :=
  let* '(bi, _) := ja_best st in let* '(wi, _) := ja_worst st in
  let* bx := nth_error (ja_pos st) bi in let* wx := nth_error (ja_pos st) wi in
  let* new := traverse (jaya_row (anneal1 gen ngen) bx wx (drs gen)) 0 (ja_pos st) in
  let nfits := map (fun x => as_max m (fit x)) new in
  let kept := map2 jaya_keep (combine new nfits) (combine (ja_pos st) (ja_fits st)) in
  let best := jaya_scan jaya_best1 0 (map snd kept) (ja_best st) in
  let worst := jaya_scan jaya_worst1 0 (map snd kept) (ja_worst st) in
  let* '(_, bs) := best in
  let* '(_, loc) := argmax nfits in
  Some (JayaSt (map fst kept) (map snd kept) best worst (ja_local st ++ [as_max m loc]) (ja_scores st ++ [as_max m bs])
          (new, nfits) (ja_log st ++ new)).

(** JAYA.evolute, jaya.py:190-329.  fit_worker (153-164) does not clip.  With ngen = 0 the
    returned names are unset. *)
Definition jaya_start (init : list (list Q)) : jaya_state :=
  let fits := map (fun x => as_max m (fit x)) init in
  JayaSt init fits (jaya_scan jaya_best1 0 fits None) (jaya_scan jaya_worst1 0 fits None) [] [] ([], []) init.
Definition jaya_evolute (ngen : nat) (drs : nat -> nat -> jdraw) (init : list (list Q)) : option pop_result :=
  if ngen =? 0 then None else
  let* st := gens (jaya_gen ngen drs) 1 ngen (jaya_start init) in
  let* '(bi, bs) := ja_best st in
  let* bx := nth_error (ja_pos st) bi in
  Some (PopRes bx (as_max m bs) (ja_local st) (ja_scores st) (fst (ja_last st)) (map (as_max m) (snd (ja_last st))) (ja_log st)).
End Trig.
