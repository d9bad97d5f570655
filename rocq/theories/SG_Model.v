(** Surrogate-assisted optimizers: Latin hypercube sampling (hybrid/ngacore/Latin.py,
    hybrid/nhhocore/Latin.py), NGA (hybrid/nga.py with ngacore/GA.py) and NHHO (hybrid/nhho.py with
    nhhocore/hho.py).

    The surrogates (ngacore/RBFN.py, nhhocore/nnmodel.py) are arbitrary: training is any function of
    the training set (and of a call number, for its randomness), prediction any function of one
    point.  Vectors live in the encoded numeric space, numbers are exact, joblib keeps the order;
    printing, plotting and files are left out. *)
From Coq Require Import List Arith ZArith QArith Qabs Qround Bool.
From Verif Require Import Base Space_Model Opt_Model Pop_Model Swarm_Model HHO_Model P2_Model.
Import ListNotations.
Open Scope nat_scope.

(** [np.random.shuffle]: every permutation can come up. *)
Definition shuffle {A} (dr : nat -> nat) (l : list A) : list A :=
  match Opt_Model.sample l (map dr (seq 0 (length l))) with Some r => r | None => [] end.

(** One column of Latin.py 24-38: one uniform draw [u j] per stratum, shuffled, scaled. *)
Definition lh_column (N : nat) (u : nat -> Q) (sh : nat -> nat) (d : dimn) : list Q :=
  map (fun t => t * (d_hi d - d_lo d) + d_lo d)%Q
      (shuffle sh (map (fun j => (qnat j + u j) / qnat N)%Q (seq 0 N))).
Fixpoint lh_columns (N : nat) (u : nat -> nat -> Q) (sh : nat -> nat -> nat) (i : nat) (ds : list dimn) : list (list Q) :=
  match ds with
  | [] => []
  | d :: r => lh_column N (u i) (sh i) d :: lh_columns N u sh (S i) r
  end.
(** Latin.py 24-39 latin.  None: N = 0 (ZeroDivisionError), or a lower bound above its upper bound
    (the function prints 'Range error' and returns Python's None, on which the callers fail). *)
Definition latin (N : nat) (u : nat -> nat -> Q) (sh : nat -> nat -> nat) (ds : list dimn) : option (list (list Q)) :=
  if (N =? 0) || existsb (fun d => Qltb (d_hi d) (d_lo d)) ds then None
  else Some (map (fun j => map (fun c => nth j c 0%Q) (lh_columns N u sh 0 ds)) (seq 0 N)).

(** Draws of one Latin hypercube. *)
Record lh_draw : Type := LhDraw { lh_u : nat -> nat -> Q; lh_sh : nat -> nat -> nat }.

Section Surrogate.
(** [train c k data]: model [k] (0, 1, 2) fitted to [data] in training round [c]. *)
Context (net : Type) (train : nat -> nat -> list (list Q * Q) -> net) (predict : net -> list Q -> Q).

(** nga.py 220-223, nhho.py 352-355: the point on which two models agree best, labelled with the
    mean of their predictions. *)
Definition pseudo (a b : net) (pop : list (list Q)) : option (list Q * Q) :=
  let* '(i, _) := argmin (map (fun x => Qabs (predict a x - predict b x)) pop) in
  let* x := nth_error pop i in
  Some (x, (predict a x + predict b x) / 2)%Q.

(** nga.py 109-113, nhho.py 387: the mean of the three predictions. *)
Definition consensus (n0 n1 n2 : net) (x : list Q) : Q := ((predict n0 x + predict n1 x + predict n2 x) / 3)%Q.

(* ---------- NGA ---------- *)
(** ngacore/RBFN.py 66-76 fit: KMeans wants at most as many clusters as points; with one centre
    calsigma (lines 54-64) divides by zero. *)
Definition rbf_fit (h c k : nat) (data : list (list Q * Q)) : option net :=
  if (2 <=? h) && (h <=? length data) then Some (train c k data) else None.

(** Draws of one generation: mates and spread factors of the crossover of row [i] (the factors aq,
    bq of GA.py 67-85 are arbitrary), mutation of row [i], coordinate [j]: the draw compared with
    pm, and u. *)
Record ga_draw : Type := GaDraw {
  gx_mate : nat -> nat; gx_a : nat -> nat -> Q; gx_b : nat -> nat -> Q; gm_flag : nat -> nat -> Q; gm_u : nat -> nat -> Q }.

(** GA.py 86-91: one coordinate of the children. *)
Definition ga_clamp (d : dimn) (x : Q) : Q := qmin2 (qmax2 x (d_lo d)) (d_hi d).
Definition ga_first (a x y : Q) : Q := let p1 := qmin2 x y in let p2 := qmax2 x y in ((1#2) * ((1 + a) * p1 + (1 - a) * p2))%Q.
Definition ga_second (b x y : Q) : Q := let p1 := qmin2 x y in let p2 := qmax2 x y in ((1#2) * ((1 - b) * p1 + (1 + b) * p2))%Q.
Fixpoint ga_child (f : nat -> Q -> Q -> Q) (j : nat) (ds : list dimn) (x y : list Q) : list Q :=
  match ds, x, y with
  | d :: ds', a :: x', b :: y' => ga_clamp d (f j a b) :: ga_child f (S j) ds' x' y'
  | _, _, _ => []
  end.

(** GA.py 48-92 crossover with pc = 1: the mates are among the rows before crossover; the two
    children of each row are appended.  None: a single row ([random.choice([])]). *)
Definition ga_cross (ds : list dimn) (dr : ga_draw) (len i : nat) (pop : list (list Q)) : option (list (list Q)) :=
  let* j := choice (remove_at (seq 0 len) i) (gx_mate dr i) in
  let* x := nth_error pop i in
  let* y := nth_error pop j in
  Some (pop ++ [ga_child (fun k => ga_first (gx_a dr i k)) 0 ds x y; ga_child (fun k => ga_second (gx_b dr i k)) 0 ds x y]).
Definition ga_crossover (ds : list dimn) (dr : ga_draw) (pop : list (list Q)) : option (list (list Q)) :=
  gens (ga_cross ds dr (length pop)) 0 (length pop) pop.

(** GA.py 99-110: one mutated coordinate; [rt] is the 16th root.  None: a variable with equal
    bounds becomes nan here. *)
Definition ga_delta (rt : Q -> Q) (t u : Q) : Q :=
  if Qle_bool u (1#2) then (rt (2 * u + (1 - 2 * u) * t ^ 16) - 1)%Q else (1 - rt (2 * (1 - u) + (2 * u - 1) * t ^ 16))%Q.
Definition ga_mut1 (rt : Q -> Q) (d : dimn) (u x : Q) : option Q :=
  let range := (d_hi d - d_lo d)%Q in
  if Qeq_bool range 0 then None else
  let t := if Qltb (x - d_lo d) (d_hi d - x) then (1 - (x - d_lo d) / range)%Q else (1 - (d_hi d - x) / range)%Q in
  Some (x + ga_delta rt t u * range)%Q.

(** GA.py 94-110 mutation with pm = 1/dimension: row [i] is copied to the end, then mutated in
    place. *)
Definition ga_mutate (rt : Q -> Q) (ds : list dimn) (dr : ga_draw) (i : nat) (pop : list (list Q)) : option (list (list Q)) :=
  let* x := nth_error pop i in
  let* x' := coords (fun j d v => if Qltb (gm_flag dr i j) (1 / qnat (length ds)) then ga_mut1 rt d (gm_u dr i j) v else Some v) 0 ds x in
  Some (set_nth (pop ++ [x]) i x').

(** nga.py 108 [np.unique(pop, axis=0)]: each row once.  (NumPy also sorts the rows; selection
    sorts them anyway, by a key in which different rows never tie.) *)
Fixpoint ga_unique (pop : list (list Q)) : list (list Q) :=
  match pop with
  | [] => []
  | x :: r => let r' := ga_unique r in if existsb (vec_eqb x) r' then r' else x :: r'
  end.

(** GA.py 41-46 selection: [np.lexsort(data.T)] sorts by the last column, the fitness, then by the
    parameters from the last one to the first. *)
Fixpoint lex_leb (a b : list Q) : bool :=
  match a, b with
  | [], _ => true
  | _ :: _, [] => false
  | x :: a', y :: b' => if Qltb x y then true else if Qltb y x then false else lex_leb a' b'
  end.
Definition sel_key (xf : list Q * Q) : list Q := snd xf :: rev (fst xf).
Fixpoint sel_insert (a : list Q * Q) (l : list (list Q * Q)) : list (list Q * Q) :=
  match l with
  | [] => [a]
  | b :: r => if lex_leb (sel_key a) (sel_key b) then a :: l else b :: sel_insert a r
  end.
Fixpoint sel_sort (l : list (list Q * Q)) : list (list Q * Q) :=
  match l with [] => [] | a :: r => sel_insert a (sel_sort r) end.

Section Nga.
Context (rt : Q -> Q) (m : mode) (fit : list Q -> Q) (ds : list dimn) (npop nwarm h : nat).

(** nga.py 70: [int(num_warmups/3)]. *)
Definition nga_third : nat := nwarm / 3.

(** The three training sets and models of resetmodel, nga.py 192-210. *)
Record nga_models : Type := NgaModels { nm_parts : list (list Q * Q) * list (list Q * Q) * list (list Q * Q); nm_nets : net * net * net }.
Definition nga_reset (c : nat) (sh : nat -> nat) (data : list (list Q * Q)) : option (list (list Q * Q) * nga_models) :=
  let data' := shuffle sh data in
  let p0 := firstn nga_third data' in
  let p1 := firstn nga_third (skipn nga_third data') in
  let p2 := skipn (nwarm - nga_third) data' in
  let* n0 := rbf_fit h c 0 p0 in
  let* n1 := rbf_fit h c 1 p1 in
  let* n2 := rbf_fit h c 2 p2 in
  Some (data', NgaModels (p0, p1, p2) (n0, n1, n2)).

(** updatemodel, nga.py 212-236: each training set plus one pseudo-labelled point. *)
Definition nga_update (c : nat) (pop : list (list Q)) (mo : nga_models) : option nga_models :=
  let '(p0, p1, p2) := nm_parts mo in
  let '(n0, n1, n2) := nm_nets mo in
  let* e0 := pseudo n1 n2 pop in
  let* m0 := rbf_fit h c 0 (p0 ++ [e0]) in
  let* e1 := pseudo n0 n2 pop in
  let* m1 := rbf_fit h c 1 (p1 ++ [e1]) in
  let* e2 := pseudo n0 n1 pop in
  let* m2 := rbf_fit h c 2 (p2 ++ [e2]) in
  Some (NgaModels (p0 ++ [e0], p1 ++ [e1], p2 ++ [e2]) (m0, m1, m2)).

(** Draws of one generation: genetic operators, shuffle of the warm-up data. *)
Record nga_draw : Type := NgaDraw { nd_ga : ga_draw; nd_sh : nat -> nat }.

(** Ghost record of one generation: parents, training sets, candidates, selected rows. *)
Record nga_step : Type := NgaStep {
  ns_parents : list (list Q); ns_parts : list (list Q * Q) * list (list Q * Q) * list (list Q * Q);
  ns_cands : list (list Q); ns_next : list (list Q) }.
Record nga_state : Type := NgaSt {
  ng_pop : list (list Q); ng_data : list (list Q * Q); ng_models : nga_models; ng_x : list (list Q); ng_y : list Q;
  ng_trace : list nga_step }.

(** nga.py 104-124, generation [t]; training rounds: reset number r is round 2r, the update of
    generation t is round 2t+1. *)
Definition nga_gen (drs : nat -> nga_draw) (t : nat) (st : nga_state) : option nga_state :=
  let dr := drs t in
  let* up := nga_update (2 * t + 1) (ng_pop st) (ng_models st) in
  let '(n0, n1, n2) := nm_nets up in
  let* crossed := ga_crossover ds (nd_ga dr) (ng_pop st) in
  let* mutated := gens (ga_mutate rt ds (nd_ga dr)) 0 npop crossed in
  let cands := ga_unique mutated in
  let scored := map (fun x => (x, consensus n0 n1 n2 x)) cands in
  let next := map fst (firstn npop (sel_sort scored)) in
  let* best := nth_error next 0 in
  let* '(data', mo) := nga_reset (2 * (t + 1)) (nd_sh dr) (ng_data st) in
  let* '(_, lo) := argmin (map snd scored) in
  Some (NgaSt next data' mo (ng_x st ++ [best]) (ng_y st ++ [as_min m lo])
          (ng_trace st ++ [NgaStep (ng_pop st) (nm_parts up) cands next])).

(** Returned lists; ghosts: the points given to the user's function, and the generations. *)
Record nga_result : Type := NgaRes { nr_x : list (list Q); nr_y : list Q; nr_evals : list (list Q); nr_trace : list nga_step }.

(** nga.py 78-142 evolute. *)
Definition nga_evolute (ngen : nat) (lw lp : lh_draw) (sh0 : nat -> nat) (drs : nat -> nga_draw) : option nga_result :=
  let* warm := latin nwarm (lh_u lw) (lh_sh lw) ds in
  let data := map (fun x => (x, as_min m (fit x))) warm in
  let* '(data', mo) := nga_reset 0 sh0 data in
  let* pop := latin npop (lh_u lp) (lh_sh lp) ds in
  let* st := gens (nga_gen drs) 0 ngen (NgaSt pop data' mo [] [] []) in
  Some (NgaRes (ng_x st) (ng_y st) warm (ng_trace st)).
End Nga.

(** nga.py 69-71: default number of warm-up samples and of hidden nodes ([int(np.sqrt(...))]). *)
Definition nga_warmups (ds : list dimn) (arg : option nat) : nat := match arg with Some n => n | None => 20 * length ds end.
Definition nga_hidden (nwarm : nat) (arg : option nat) : nat := match arg with Some h => h | None => Nat.sqrt (nwarm / 3) end.

(* ---------- NHHO ---------- *)
(** nhhocore/hho.py 216-226 init_sample: Latin hypercube, integer parameters rounded. *)
Definition hawk_sample (N : nat) (dr : lh_draw) (ds : list dimn) : option (list (list Q)) :=
  let* rows := latin N (lh_u dr) (lh_sh dr) ds in
  Some (map (map2 (fun d x => if d_int d then inject_Z (py_round x) else x) ds) rows).

(** [np.array_split(l, 3)]. *)
Definition split3 {A} (l : list A) : list A * list A * list A :=
  let q := length l / 3 in
  let r := length l mod 3 in
  let a := if 1 <=? r then S q else q in
  let b := if 2 <=? r then S q else q in
  (firstn a l, firstn b (skipn a l), skipn b (skipn a l)).

(** nhhocore/nnmodel.py 56 with sklearn's train_test_split: ceil(test_split * n) samples are held
    out, and it raises unless 0 < test_split < 1 and a sample is left for training. *)
Definition nn_test (ts : Q) (n : nat) : nat := Z.to_nat (Qceiling (ts * qnat n)).
Definition nn_enough (ts : Q) (n : nat) : bool := Qltb 0 ts && Qltb ts 1 && (nn_test ts n <? n).
Definition nn_fit (ts : Q) (c k : nat) (data : list (list Q * Q)) : option net :=
  if nn_enough ts (length data) then Some (train c k data) else None.

Section Nhho.
Context (expf : Q -> Q) (m : mode) (fit : list Q -> Q) (ds : list dimn) (mt : imethod) (n : nat).

(** Ghost record of one generation: hawks, training sets of its models, predictions. *)
Record nh_step : Type := NhStep {
  hs_hawks : list (list Q); hs_parts : list (list Q * Q) * list (list Q * Q) * list (list Q * Q); hs_preds : list Q }.
Record nh_state : Type := NhSt {
  nh_pos : list (list Q); nh_rab : option (list Q * Q); nh_x : list (list Q); nh_y : list Q; nh_evals : list (list Q);
  nh_trace : list nh_step }.

(** nhho.py 214-272, generation [t]; [parts]: the warm-up samples in three, [base]: the models
    fitted to them.  The moves are those of hho.py (HHO_Model.v): the core HHO object evaluates the
    user's function itself, without regard to the mode ([Mmin] below), and compares it with the
    predicted fitness of the hawk. *)
Definition nh_gen (ts : Q) (ngen : nat) (parts : list (list Q * Q) * list (list Q * Q) * list (list Q * Q)) (base : net * net * net)
    (drs : nat -> nat -> hdraw) (t : nat) (st : nh_state) : option nh_state :=
  let a := anneal1 t ngen in
  let '(p0, p1, p2) := parts in
  let '(b0, b1, b2) := base in
  let* e0 := pseudo b1 b2 (nh_pos st) in
  let* n0 := nn_fit ts (t + 1) 0 (p0 ++ [e0]) in
  let* e1 := pseudo b2 b0 (nh_pos st) in
  let* n1 := nn_fit ts (t + 1) 1 (p1 ++ [e1]) in
  let* e2 := pseudo b0 b1 (nh_pos st) in
  let* n2 := nn_fit ts (t + 1) 2 (p2 ++ [e2]) in
  let fits := map (consensus n0 n1 n2) (nh_pos st) in
  let rab := track (nh_rab st) (combine (nh_pos st) (map (as_min m) fits)) in
  let* '(rx, _) := rab in
  let* '(i, lo) := argmin fits in
  let* best := nth_error (nh_pos st) i in
  let* '(ps, dv) := gens (hho_hawk expf Mmin fit ds mt n (2 * (1 - qnat t / qnat ngen)) a rx fits (drs t)) 0 n (nh_pos st, []) in
  let* pos := rows_loop (fun i _ x => settle expf a mt (h_vd (drs t i)) ds x) n ps in
  Some (NhSt pos rab (nh_x st ++ [best]) (nh_y st ++ [as_min m lo]) (nh_evals st ++ dv)
          (nh_trace st ++ [NhStep (nh_pos st) (p0 ++ [e0], p1 ++ [e1], p2 ++ [e2]) fits])).

(** Returned lists; ghosts: number of warm-up points, points given to the user's function,
    generations. *)
Record nh_result : Type := NhRes { hx : list (list Q); hy : list Q; h_warm : nat; h_evals : list (list Q); h_trace : list nh_step }.

(** nhho.py 149-286 evolute; [warm] is the argument num_warmups. *)
Definition nh_evolute (ts : Q) (warm : option nat) (ngen : nat) (x0 : option (list (list Q))) (lw lp : lh_draw) (drs : nat -> nat -> hdraw)
  : option nh_result :=
  let* samples := hawk_sample (match warm with Some w => w | None => n end) lw ds in
  let data := map (fun x => (x, fit (pt_arg ds x))) samples in
  let '(p0, p1, p2) := split3 data in
  let* b0 := nn_fit ts 0 0 p0 in
  let* b1 := nn_fit ts 0 1 p1 in
  let* b2 := nn_fit ts 0 2 p2 in
  let* init := match x0 with
               | Some (x :: l) => if length (x :: l) =? n then Some (x :: l) else None
               | _ => hawk_sample n lp ds
               end in
  let* st := gens (nh_gen ts ngen (p0, p1, p2) (b0, b1, b2) drs) 0 ngen (NhSt init None [] [] (map (pt_arg ds) samples) []) in
  Some (NhRes (nh_x st) (nh_y st) (length samples) (nh_evals st) (nh_trace st)).
End Nhho.
End Surrogate.

(* ---------- scaling of the training data ---------- *)
(** sklearn's MinMaxScaler fitted to [ys] (nnmodel.py 59, 63). *)
Definition minmax (ys : list Q) (y : Q) : Q :=
  match ys with
  | [] => y
  | a :: r => let lo := fold_left qmin2 r a in let hi := fold_left qmax2 r a in
              if Qeq_bool hi lo then (y - lo)%Q else ((y - lo) / (hi - lo))%Q
  end.
(** sklearn's StandardScaler, one column (nnmodel.py 58, 60). *)
Definition standard (sqrtf : Q -> Q) (xs : list Q) (x : Q) : Q :=
  let k := qnat (length xs) in
  let mu := (fold_right Qplus 0 xs / k)%Q in
  let var := (fold_right Qplus 0 (map (fun v => (v - mu) * (v - mu)) xs) / k)%Q in
  if Qeq_bool var 0 then (x - mu)%Q else ((x - mu) / sqrtf var)%Q.
Definition scale_row (sqrtf : Q -> Q) (rows : list (list Q)) (x : list Q) : list Q :=
  map (fun j => standard sqrtf (map (fun r => nth j r 0%Q) rows) (nth j x 0%Q)) (seq 0 (length x)).

(** nnmodel.py 49-81 fit: the samples are shuffled and split, both scalers are fitted to the
    training part, and the network [raw] is fitted to scaled inputs and scaled labels (the held-out
    part chooses the checkpoint).  The callers (nhho.py 346-364, 371) then give it unscaled hawks and
    take its output as a fitness: nothing is scaled back. *)
Definition nn_train {net} (raw : nat -> nat -> list (list Q * Q) -> list (list Q * Q) -> net) (sqrtf : Q -> Q) (ts : Q)
    (sh : nat -> nat -> nat -> nat) (c k : nat) (data : list (list Q * Q)) : net :=
  let data' := shuffle (sh c k) data in
  let test := firstn (nn_test ts (length data)) data' in
  let kept := skipn (nn_test ts (length data)) data' in
  let scale := map (fun p : list Q * Q => (scale_row sqrtf (map fst kept) (fst p), minmax (map snd kept) (snd p))) in
  raw c k (scale kept) (scale test).
