(** Model of the Animorphic Ensemble Optimizer: neorl/hybrid/aeo.py.

    The optimizers of the ensemble are oracles: one call of [strategy.evolute] (line 322) returns
    the members and fitness values of its last_pop and logs the points it evaluated through the
    wrapped fitness function (FitWrap, lines 43-54; one process).  Random numbers are arbitrary,
    [pw] is Python's power of two floats.  Spaces with grid parameters are encoded.  The xarray
    log keeps only what later computations or the theorems read. *)
From Coq Require Import List Arith ZArith QArith Qabs Bool.
From Verif Require Import Base Space_Model Opt_Model.
Import ListNotations.
Open Scope nat_scope.

(** ** Python's sort *)
Section Sort.
Context {A : Type} (lt : A -> A -> bool).
(** listobject.c count_run: length of the longest ascending run at the start of [x :: l] ... *)
Fixpoint run_up (x : A) (l : list A) : nat :=
  match l with [] => 1 | y :: r => if lt y x then 1 else S (run_up y r) end.
(** ... of the longest strictly descending run. *)
Fixpoint run_down (x : A) (l : list A) : nat :=
  match l with [] => 1 | y :: r => if lt y x then S (run_down y r) else 1 end.
(** binarysort: position at which the pivot is inserted, between [lo] and [hi]. *)
Fixpoint bisect_pos (fuel : nat) (d : A) (sorted : list A) (pivot : A) (lo hi : nat) : nat :=
  match fuel with
  | O => lo
  | S f => if lo <? hi then
             let mid := lo + (hi - lo) / 2 in
             if lt pivot (nth mid sorted d) then bisect_pos f d sorted pivot lo mid
             else bisect_pos f d sorted pivot (S mid) hi
           else lo
  end.
Definition insert_at (i : nat) (x : A) (l : list A) : list A := firstn i l ++ x :: skipn i l.
Definition bin_insert (sorted : list A) (x : A) : list A :=
  insert_at (bisect_pos (length sorted) x sorted x 0 (length sorted)) x sorted.
(** list.sort: one run, completed by binary insertion.  Exact for fewer than 64 elements
    (above that CPython merges several such runs; the result is the same whenever [lt] is a
    strict weak order). *)
Definition pysort (l : list A) : list A :=
  match l with
  | [] => []
  | [x] => [x]
  | x :: y :: r =>
      let n := if lt y x then run_down x (y :: r) else run_up x (y :: r) in
      let start := if lt y x then rev (firstn n l) else firstn n l in
      fold_left bin_insert (skipn n l) start
  end.
(** sorted(..., reverse=True). *)
Definition pysort_rev (l : list A) : list A := rev (pysort (rev l)).
End Sort.

(** ** Members and fitness values *)
(** [<] of two lists of numbers. *)
Fixpoint list_ltb (a b : list Q) : bool :=
  match a, b with
  | [], _ :: _ => true
  | x :: a', y :: b' => if Qeq_bool x y then list_ltb a' b' else Qltb x y
  | _, [] => false
  end.
(** [<] of floats; of pairs (fitness, member): elements that are the same object count as equal,
    and every NaN here is the object np.nan (line 438). *)
Definition fit_ltb (a b : fnum) : bool := match a, b with Num x, Num y => Qltb x y | _, _ => false end.
Definition pair_ltb (a b : fnum * list Q) : bool :=
  match fst a, fst b with
  | NaN, NaN => list_ltb (snd a) (snd b)
  | Num x, Num y => if Qeq_bool x y then list_ltb (snd a) (snd b) else Qltb x y
  | _, _ => false
  end.

Inductive aalgo : Type := aWOA | aGWO | aPSO | aMFO | aHHO | aDE | aES (mu : nat) | aSSA | aJAYA.
(** aeo.py:227-237 eval_algo_popnumber. *)
Definition ready (a : aalgo) (n : nat) : bool :=
  match a with
  | aWOA | aGWO | aPSO | aHHO | aDE | aSSA => 5 <=? n
  | aMFO | aJAYA => 4 <=? n
  | aES mu => mu <=? n
  end.
(** aeo.py:204-225 get_algo_ngtonevals. *)
Definition nevals (al : aalgo) (i a : nat) : nat :=
  match al with
  | aWOA | aGWO | aMFO => a * i
  | aDE | aHHO => 2 * i * a
  | aPSO | aES _ | aSSA | aJAYA => (i + 1) * a
  end.

(** aeo.py:269-288 Population: members, member_fitnesses, n, fitlog, Nc. *)
Record apop : Type := APop {
  ap_alg : aalgo; ap_mem : list (list Q); ap_fit : list fnum; ap_n : nat; ap_log : list Q; ap_nc : nat }.

(** aeo.py:290-299 fitness, dfitness. *)
Definition fitness (p : apop) : option Q := match rev (ap_log p) with f :: _ => Some f | [] => None end.
Definition dfitness (p : apop) : option Q :=
  match rev (ap_log p) with [] => None | [f] => Some f | f :: g :: _ => Some (f - g)%Q end.

Definition lmin (l : list Q) : option Q := match l with [] => None | x :: r => Some (fold_left qmin2 r x) end.
Definition lmax (l : list Q) : option Q := match l with [] => None | x :: r => Some (fold_left qmax2 r x) end.

(** aeo.py:301-347 evolute of one population; [res] is what the strategy returned (None: it
    raised) and [sizes] = Ncyc * gen_per_cycle (the annealed arguments divide by sizes - 1).
    The log writes self.n rows (line 339), so members must have that length. *)
Definition pop_evolute (gpc sizes : nat) (res : option (list (list Q * Q) * list (list Q))) (p : apop)
  : option (apop * list (list Q)) :=
  let check p s := if length (ap_mem p) =? ap_n p then Some (p, s) else None in
  if negb (ready (ap_alg p) (length (ap_mem p))) then
    match ap_log p with
    | [] => None
    | _ => check (APop (ap_alg p) (ap_mem p) (ap_fit p) (ap_n p) (ap_log p) 0) []
    end
  else if sizes =? 1 then None
  else
    let* '(last, seen) := res in
    let* f := lmin (map snd last) in
    check (APop (ap_alg p) (map fst last) (map (fun xf => Num (snd xf)) last) (ap_n p) (ap_log p ++ [f])
             (nevals (ap_alg p) gpc (ap_n p))) seen.

(** aeo.py:349-373 strength. *)
Definition strength (improve burden : bool) (fmax fmin : Q) (p : apop) : option Q :=
  let* fsel := if improve then dfitness p else fitness p in
  let normed := ((fsel - fmax) / (fmin - fmax))%Q in
  Some (if burden then (normed / (1 + inject_Z (Z.of_nat (ap_nc p))))%Q else normed).

(** aeo.py:102-113 wtd_remove: [lst.pop(i) for i in reversed(sorted(indxs))]; what is removed and
    what remains. *)
Fixpoint pop_at {A} (i : nat) (l : list A) : option (A * list A) :=
  match l, i with
  | [], _ => None
  | x :: r, O => Some (x, r)
  | x :: r, S i' => let* '(y, r') := pop_at i' r in Some (y, x :: r')
  end.
Fixpoint pop_all {A} (is_ : list nat) (l : list A) : option (list A * list A) :=
  match is_ with
  | [] => Some ([], l)
  | i :: r => let* '(x, l') := pop_at i l in let* '(xs, l'') := pop_all r l' in Some (x :: xs, l'')
  end.
Definition desc (is_ : list nat) : list nat := rev (pysort Nat.ltb is_).

Inductive awt : Type := Uni | Weighted.
Inductive aorder : Type := WB | BW | AWB | ABW | NoOrder.
(** aeo.py:387-393: the order used; indexing None is a TypeError. *)
Definition order_now (o : aorder) (gfrac : Q) : option bool (* best first *) :=
  match o with
  | BW => Some true | WB => Some false
  | ABW => Some (Qltb gfrac (1#2)) | AWB => Some (negb (Qltb gfrac (1#2)))
  | NoOrder => None
  end.

(** aeo.py:375-433 export: [idx] are the drawn indices.  The three weightings differ only in
    the probabilities of the draw. *)
Definition pop_export (wt : awt) (o : aorder) (gfrac : Q) (idx : list nat) (p : apop) : option (list (list Q) * apop) :=
  let* '(ms, fs) :=
    match wt with
    | Uni => Some (ap_mem p, ap_fit p)
    | Weighted =>
        let* best_first := order_now o gfrac in
        let ps := combine (ap_fit p) (ap_mem p) in
        Some (if best_first : bool then (map snd (pysort pair_ltb ps), pysort fit_ltb (ap_fit p))
              else (map snd (pysort_rev pair_ltb ps), pysort_rev fit_ltb (ap_fit p)))
    end in
  let idx := if ap_n p =? 0 then [] else idx in
  let* '(out, ms') := pop_all (desc idx) ms in
  let* '(_, fs') := pop_all (desc idx) fs in
  Some (out, APop (ap_alg p) ms' fs' (length ms') (ap_log p) (ap_nc p)).

(** aeo.py:435-439 receive. *)
Definition receive (xs : list (list Q)) (p : apop) : apop :=
  APop (ap_alg p) (ap_mem p ++ xs) (ap_fit p ++ map (fun _ => NaN) xs) (length (ap_mem p ++ xs)) (ap_log p) (ap_nc p).

(** aeo.py:862-865: the exported individuals are handed out in order. *)
Fixpoint hand_out (al : list nat) (pool : list (list Q)) (ps : list apop) : list apop :=
  match al, ps with
  | a :: al', p :: ps' => receive (firstn a pool) p :: hand_out al' (skipn a pool) ps'
  | _, _ => ps
  end.

(** ** Migration matrix *)
(** aeo.py:61-65 ncr. *)
Definition ncr (n r : nat) : nat :=
  let r := Nat.min r (n - r) in
  fold_left Nat.mul (map (fun k => n - k) (seq 0 r)) 1 / fold_left Nat.mul (seq 1 r) 1.
Fixpoint qpow (x : Q) (n : nat) : Q := match n with O => 1%Q | S k => (x * qpow x k)%Q end.
Definition qn (n : nat) : Q := inject_Z (Z.of_nat n).
Definition qsum (l : list Q) : Q := fold_right Qplus 0%Q l.
(** aeo.py:646-648. *)
Definition mean_part (n : nat) (h : Q) : Q :=
  qsum (map (fun k => (qn k / qn n * qn (ncr n k) * qpow h k * qpow (1 - h) (n - k))%Q) (seq 0 (n + 1))).
(** aeo.py:639-653 fill_M: entry [j,i] for source [i] with [n] members and export weight [h]. *)
Definition m_entry (npop : nat) (scale : list Q) (n : nat) (h : Q) (i j : nat) : Q :=
  let kd := if i =? j then 1%Q else 0%Q in
  if n =? 0 then (1 / qn npop)%Q else (kd + (nth j scale 0 - kd) * mean_part n h)%Q.
Definition m_column (scale : list Q) (nmems : list nat) (hs : list Q) (i : nat) : list Q :=
  map (m_entry (length nmems) scale (nth i nmems 0) (nth i hs 0%Q) i) (seq 0 (length nmems)).

(** ** The run *)
Inductive ramp : Type := Up | Down | Const (q : Q).
(** aeo.py:623-629 get_alphabeta; Ncyc = 1 divides by zero. *)
Definition get_alphabeta (r : ramp) (ncyc Ncyc : nat) : option Q :=
  match r with
  | Const q => Some q
  | _ => if Ncyc =? 1 then None else
         let f := ((qn ncyc - 1) / (qn Ncyc - 1))%Q in
         Some (match r with Down => (1 - f)%Q | _ => f end)
  end.
(** aeo.py:631-637 get_q. *)
Definition get_q (r : ramp) (ncyc Ncyc : nat) : option Q :=
  match r with
  | Const q => Some q
  | _ => if Ncyc =? 1 then None else
         Some (match r with
               | Up => (2 / (1 - qn Ncyc) * (1 - qn ncyc) - 1)%Q
               | _ => (2 / (1 - qn Ncyc) * (qn ncyc - 1) + 1)%Q
               end)
  end.

Record apar : Type := APar {
  pa_alpha : ramp; pa_gimp : bool; pa_gburden : bool; pa_q : ramp; pa_wt : awt; pa_order : aorder;
  pa_beta : ramp; pa_bimp : bool; pa_bburden : bool; pa_gpc : nat }.

(** What one cycle writes to the log: the populations between the evolution and the migration
    phase and after the migration; whether there was migration, scaled strengths, binomial
    weights (zeros without migration), scaled destination strengths, number of members before
    the migration, columns of M. *)
Record clog : Type := CLog {
  cl_before : list apop; cl_after : list apop; cl_mig : bool; cl_str : list Q; cl_wts : list Q; cl_dest : list Q; cl_n : list nat; cl_M : list (list Q) }.

(** Draws: number of exported members of population [j] in cycle [c] (of [n], with probability
    [w]), their indices, shuffle of the exported, allotment (of [k] individuals). *)
Record adraw : Type := ADraw {
  ad_ei : nat -> nat -> nat -> Q -> nat; ad_idx : nat -> nat -> nat -> nat -> list nat;
  ad_shuffle : nat -> list (list Q) -> list (list Q); ad_allot : nat -> nat -> list Q -> list nat }.

Definition omap {A B} (f : A -> option B) (l : list A) : option (list B) := traverse (fun _ => f) 0 l.

Fixpoint mapi {A B} (f : nat -> A -> B) (i : nat) (l : list A) : list B :=
  match l with [] => [] | x :: r => f i x :: mapi f (S i) r end.

Section AEO.
Context (pw : Q -> Q -> Q) (pa : apar).
(** The strategies: cycle, population, its members. *)
Context (ev : nat -> nat -> list (list Q) -> option (list (list Q * Q) * list (list Q))).
Context (dr : adraw) (Ncyc : nat).

(** [s/sum(l) for s in l]; a zero sum is a ZeroDivisionError (or NaN). *)
Definition scaled (l : list Q) : option (list Q) :=
  let t := qsum l in if Qeq_bool t 0 then None else Some (map (fun s => (s / t)%Q) l).

(** aeo.py:808-826, 844-857: strengths of the populations to the power [a], scaled. *)
Definition strengths (imp burden : bool) (hi lo hid lod a : Q) (ps : list apop) : option (list Q) :=
  omap (fun p => let* s := if imp then strength true burden hid lod p else strength false burden hi lo p in Some (pw s a)) ps.

(** aeo.py:836-865: member selection, destination selection. *)
Definition migrate (c : nat) (eis : list nat) (dest : list Q) (ps : list apop) : option (list apop) :=
  let* ex := traverse (fun j p =>
               pop_export (pa_wt pa) (pa_order pa) (qn c / qn Ncyc) (ad_idx dr c j (length (ap_mem p)) (nth j eis 0)) p) 0 ps in
  let pool := ad_shuffle dr c (concat (map fst ex)) in
  Some (hand_out (ad_allot dr c (length pool) dest) pool (map snd ex)).

(** aeo.py:795-800: evolution phase. *)
Definition evolve_all (c : nat) (ps : list apop) : option (list (apop * list (list Q))) :=
  traverse (fun j p => pop_evolute (pa_gpc pa) (Ncyc * pa_gpc pa) (ev c j (ap_mem p)) p) 0 ps.

(** aeo.py:795-868: cycle [c] (from 1); populations, new log entry, points evaluated. *)
Definition aeo_cycle (c : nat) (ps : list apop) : option (list apop * clog * list (list Q)) :=
  let* evd := evolve_all c ps in
  let ps := map fst evd in
  let seen := concat (map snd evd) in
  let* fs := omap fitness ps in
  let* dfs := omap dfitness ps in
  let* hi := lmax fs in let* lo := lmin fs in
  let* hid := lmax dfs in let* lod := lmin dfs in
  let* alpha := get_alphabeta (pa_alpha pa) c Ncyc in
  let flat imp := if imp : bool then Qeq_bool hid lod else Qeq_bool hi lo in
  let* '(mig, strs, wts, eis) :=
    if flat (pa_gimp pa) then Some (false, map (fun _ => 0%Q) ps, map (fun _ => 0%Q) ps, map (fun _ => 0) ps)
    else
      let* ss := strengths (pa_gimp pa) (pa_gburden pa) hi lo hid lod alpha ps in
      let* sc := scaled ss in
      let* qt := get_q (pa_q pa) c Ncyc in
      let ws := map (fun s => (((1#2) - s) * qt + (1#2))%Q) sc in
      (* np.random.binomial: p outside [0,1] is a ValueError *)
      if forallb (fun w => Qle_bool 0 w && Qle_bool w 1) ws
      then Some (true, sc, ws, mapi (fun j p => ad_ei dr c j (length (ap_mem p)) (nth j ws 0%Q)) 0 ps)
      else None in
  let* beta := get_alphabeta (pa_beta pa) c Ncyc in
  let* sd := if flat (pa_bimp pa) then Some (map (fun _ => 1%Q) ps)
             else strengths (pa_bimp pa) (pa_bburden pa) hi lo hid lod beta ps in
  let* dest := scaled sd in
  let nmems := map ap_n ps in
  let* ps' := migrate c eis dest ps in
  let M := map (m_column dest nmems wts) (seq 0 (length nmems)) in
  Some (ps', CLog ps ps' mig strs wts dest nmems M, seen).

Record ast : Type := ASt { as_pops : list apop; as_logs : list clog; as_seen : list (list Q) }.
(** The loop; [stop c] is the answer of stop_criteria after cycle [c]. *)
Fixpoint aeo_loop (stop : nat -> bool) (c todo : nat) (st : ast) : option ast :=
  match todo with
  | O => Some st
  | S t => let* '(ps, lg, seen) := aeo_cycle c (as_pops st) in
           let st' := ASt ps (as_logs st ++ [lg]) (as_seen st ++ seen) in
           if stop c then Some st' else aeo_loop stop (S c) t st'
  end.

(** aeo.py:686-694: the initial populations. *)
Definition initial (algs : list aalgo) (x0 : list (list Q)) (pop0 : list nat) : list apop :=
  map (fun ia => let '(i, a) := ia in
         let xs := map fst (filter (fun xp => snd xp =? i) (combine x0 pop0)) in
         APop a xs [] (length xs) [] 0)
      (combine (seq 0 (length algs)) algs).

(** aeo.py:655-889 evolute with given x0 and pop0 (a random x0 is one such); [before] are the
    points evaluated by earlier calls on the same object.  Result: best point, value, state. *)
Definition aeo_evolute (fit : list Q -> Q) (algs : list aalgo) (stop : nat -> bool) (before : list (list Q))
    (x0 : list (list Q)) (pop0 : list nat) : option (list Q * Q * ast) :=
  if negb (length x0 =? length pop0) then None else
  let* st := aeo_loop stop 1 Ncyc (ASt (initial algs x0 pop0) [] before) in
  let* '(b, y) := argmin (map fit (as_seen st)) in
  let* x := nth_error (as_seen st) b in
  Some (x, y, st).
End AEO.
