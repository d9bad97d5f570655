(** Pieces shared by the population optimizers of neorl/evolu that minimise internally: bound
    repair followed by discretisation, scoring, tracking of the best point, and the loop
    "move the population, evaluate it, track the best" of WOA and SSA. *)
From Coq Require Import List Arith ZArith QArith Bool.
From Verif Require Import Base Space_Model Opt_Model.
Import ListNotations.
Open Scope nat_scope.

(** Draws of one call of ensure_discrete. *)
Record vdraw : Type := VDraw { vd_rand : nat -> Q; vd_pick : nat -> nat }.

Definition bnds (ds : list dimn) : list (Q * Q) := map (fun d => (d_lo d, d_hi d)) ds.

(** [self.ensure_discrete(self.ensure_bounds(v))] (e.g. woa.py:221-222, ssa.py:214-215,
    gwo.py:312-313, mfo.py:318-319, jaya.py:249-250). *)
Definition settle (expf : Q -> Q) (alpha : Q) (mt : imethod) (dr : vdraw) (ds : list dimn) (v : list Q)
  : option (list Q) :=
  ensure_discrete expf alpha mt (vd_rand dr) (vd_pick dr) ds (clip_vec (bnds ds) v).

(** fit_worker (e.g. woa.py:155-168, ssa.py:153-166, gwo.py:119-132, mfo.py:147-157): the point
    given to the user's function, and the internal (minimised) score. *)
Definition pt_arg (ds : list dimn) (x : list Q) : list Q := clip_vec (bnds ds) x.
Definition pt_score (m : mode) (fit : list Q -> Q) (ds : list dimn) (x : list Q) : Q :=
  as_min m (fit (pt_arg ds x)).

(** "save the best of the best": [for i, fits in enumerate(fitness): if fits < best: ...]
    (woa.py:285-289, ssa.py:277-281, gwo.py:247-250, mfo.py:249-253).  None is the initial
    [float('inf')]. *)
Definition track1 (b : option (list Q * Q)) (xf : list Q * Q) : option (list Q * Q) :=
  match b with
  | None => Some xf
  | Some (x, f) => if Qltb (snd xf) f then Some xf else Some (x, f)
  end.
Definition track (b : option (list Q * Q)) (l : list (list Q * Q)) : option (list Q * Q) :=
  fold_left track1 l b.

(** [for i in range(0, n)]: row [i] of the position matrix is replaced in place by
    [f i matrix row]. *)
Definition rows_loop (f : nat -> list (list Q) -> list Q -> option (list Q)) (n : nat) (pos : list (list Q))
  : option (list (list Q)) :=
  gens (fun i ps => let* x := nth_error ps i in let* y := f i ps x in Some (set_nth ps i y)) 0 n pos.

(** A loop over the coordinates of a row, each computed by [f j]; [pos j] reads coordinate j
    of a vector. *)
Fixpoint coords (f : nat -> dimn -> Q -> option Q) (j : nat) (ds : list dimn) (x : list Q) : option (list Q) :=
  match ds, x with
  | [], _ => Some []
  | d :: ds', a :: x' => let* b := f j d a in let* r := coords f (S j) ds' x' in Some (b :: r)
  | _, _ => None
  end.

Section Engine.
Context (m : mode) (fit : list Q -> Q) (ds : list dimn).
(** [move k best pos]: the new positions of generation [k]. *)
Context (move : nat -> list Q -> list (list Q) -> option (list (list Q))).

(** Positions, best position and fitness, histories, scores of the last population, ghost log
    of evaluated points. *)
Record pop_state : Type := PopSt {
  po_pos : list (list Q); po_best : list Q * Q; po_local : list Q; po_global : list Q;
  po_fits : list Q; po_log : list (list Q) }.

(** One generation: woa.py:256-303 / ssa.py:255-296. *)
Definition pop_gen (k : nat) (st : pop_state) : option pop_state :=
  let* pos := move k (fst (po_best st)) (po_pos st) in
  let fits := map (pt_score m fit ds) pos in
  let* best := track (Some (po_best st)) (combine pos fits) in
  let* '(_, f) := argmin fits in
  Some (PopSt pos best (po_local st ++ [as_min m f]) (po_global st ++ [as_min m (snd best)]) fits
          (po_log st ++ map (pt_arg ds) pos)).

Record pop_result : Type := PopRes {
  pr_bx : list Q; pr_by : Q; pr_hl : list Q; pr_hg : list Q; pr_pop : list (list Q); pr_pf : list Q;
  pr_log : list (list Q) }.

(** evolute: woa.py:225-344 / ssa.py:220-333; initial evaluation and selection, then the
    generations (numbered from [k0]).  With ngen = 0 the returned attribute is unset. *)
Definition pop_evolute (k0 ngen : nat) (init : list (list Q)) : option pop_result :=
  let fits := map (pt_score m fit ds) init in
  let* '(i, f) := argmin fits in
  let* x := nth_error init i in
  if ngen =? 0 then None else
  let* st := gens pop_gen k0 ngen (PopSt init (x, f) [] [] fits (map (pt_arg ds) init)) in
  Some (PopRes (fst (po_best st)) (as_min m (snd (po_best st))) (po_local st) (po_global st)
          (po_pos st) (map (as_min m) (po_fits st)) (po_log st)).
End Engine.
