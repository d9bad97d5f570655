(** neorl/hybrid/edev.py (EDEV) and neorl/hybrid/edevcore/helpers.py: three differential
    evolution variants (JADE, CoDE, EPSDE) on a population that is re-partitioned at every
    generation.  Positions are rows of numbers in the encoded space; fitness values are exact and
    minimised internally; joblib is an order-preserving map; decoding of grid parameters is part
    of the arbitrary [fit]; printing and the unused counters (numViaLN, rateViaLN, I_nfeval,
    I_best_index) are left out.  There is at least one dimension. *)
From Coq Require Import List Arith ZArith QArith Qround Qabs Bool.
From Verif Require Import Base Space_Model Opt_Model Pop_Model Swarm_Model.
Import ListNotations.
Open Scope nat_scope.

(** NumPy arithmetic on rows of equal length. *)
Definition vadd (a b : list Q) : list Q := map2 Qplus a b.
Definition vsub (a b : list Q) : list Q := map2 Qminus a b.
Definition vmul (a b : list Q) : list Q := map2 Qmult a b.
Definition vscale (c : Q) (a : list Q) : list Q := map (Qmult c) a.
Definition qsum_list (l : list Q) : Q := fold_left Qplus l 0%Q.
(** [u(0), ..., u(n-1)]: a vector of draws. *)
Definition vdrawn (u : nat -> Q) (n : nat) : list Q := map u (seq 0 n).

(** [a[idx]] and [a[idx] = new] for an array of positions. *)
Definition gather {A} (idx : list nat) (l : list A) : option (list A) := traverse (fun _ i => nth_error l i) 0 idx.
Definition scatter {A} (idx : list nat) (new l : list A) : list A :=
  fold_left (fun acc p => set_nth acc (fst p) (snd p)) (combine idx new) l.

(** [np.floor(np.random.uniform()*n)]: an arbitrary draw reduced below [n] (0 when [n] is 0). *)
Definition below (n d : nat) : nat := match n with O => 0 | S _ => d mod n end.

(** Coordinate [j] of the result is that of [x] where [f j], that of [v] elsewhere. *)
Fixpoint blend (f : nat -> bool) (j : nat) (x v : list Q) : list Q :=
  match x, v with
  | a :: x', b :: v' => (if f j then a else b) :: blend f (S j) x' v'
  | _, _ => []
  end.

(** * helpers.py *)

(** helpers.py:138-169 gnR1R2, one of its two rejection loops: the positions for which
    [bad row value] are drawn again, from [1 + floor(u*NP)], until none is left; the 1001st
    redrawing raises.  [draws attempt row] are the draws. *)
Fixpoint reject (fuel : nat) (bad : nat -> nat -> bool) (draw : nat -> nat -> nat) (attempt : nat) (r : list nat)
  : option (list nat) :=
  let pos := map2 bad (seq 0 (length r)) r in
  if existsb (fun b => b) pos then
    match fuel with
    | O => None
    | S f => reject f bad draw (S attempt)
               (map2 (fun i (br : bool * nat) => if fst br then draw attempt i else snd br) (seq 0 (length r)) (combine pos r))
    end
  else Some r.
Definition gnR1R2 (np0 np1 np2 : nat) (d1 d2 : nat -> nat -> nat) : option (list nat * list nat) :=
  let dr np (d : nat -> nat -> nat) k i := below np (d k i) + 1 in
  let* r1 := reject 1000 (fun i v => v =? i) (dr np1 d1) 1 (map (dr np1 d1 0) (seq 0 np0)) in
  let* r2 := reject 1000 (fun i v => (v =? nth i r1 0) || (v =? i)) (dr np2 d2) 1 (map (dr np2 d2 0) (seq 0 np0)) in
  Some (r1, r2).

(** helpers.py:134-136 sub2ind for [rows = arange(popsize)] and 1-based columns. *)
Definition sub2ind (n_rows : nat) (cols : list nat) : list nat :=
  map2 (fun r c => n_rows * (c - 1) + r) (seq 0 (length cols)) cols.

(** helpers.py:40-132 generator: draws for one individual.  [g_a], [g_b] are the draws of the
    donors of the first and third strategy, [g_c] of the second. *)
Record gdraw : Type := GDraw {
  g_par : nat -> nat; g_a : list nat; g_ja : nat; g_ta : nat -> Q;
  g_c : nat -> nat; g_u : Q;
  g_b : list nat; g_v : Q; g_jb : nat; g_tb : nat -> Q }.
(** "Choose the k-th index", helpers.py:53-60, 98-111: the k-th draw is
    [floor(u*(popsize-k-1)) + 1], a position of what is left of the index set (whose element 0
    is never chosen); [size] is [popsize - k - 1]. *)
Fixpoint donors (set : list nat) (size : nat) (ds : list nat) : option (list nat) :=
  match ds with
  | [] => Some []
  | d :: r => let t := below size d + 1 in
              let* x := nth_error set t in
              let* rest := donors (remove_at set t) (size - 1) r in Some (x :: rest)
  end.
(** F and CRC, edev.py:453-454. *)
Definition code_F : list Q := [1; 1; 8 # 10]%Q.
Definition code_CR : list Q := [1 # 10; 9 # 10; 2 # 10]%Q.
Definition generator (p : list (list Q)) (ds : list dimn) (i : nat) (g : gdraw) : option (list (list Q)) :=
  let n := length p in
  let dim := length ds in
  let par k := below 3 (g_par g k) in
  let set := remove_at (seq 0 n) i in
  let* x := nth_error p i in
  let* '(a1, a2, a3) := (let* ix := donors set (n - 2) (firstn 3 (g_a g)) in
                         match ix with
                         | [i1; i2; i3] => let* a1 := nth_error p i1 in let* a2 := nth_error p i2 in
                                           let* a3 := nth_error p i3 in Some (a1, a2, a3)
                         | _ => None
                         end) in
  let v1 := clip_vec (bnds ds) (vadd a1 (vscale (nth (par 0) code_F 0%Q) (vsub a2 a3))) in
  let u1 := blend (fun j => negb ((j =? below dim (g_ja g)) || Qltb (g_ta g j) (nth (par 0) code_CR 0%Q))) 0 x v1 in
  let* c1 := nth_error p (below n (g_c g 0)) in
  let* c2 := nth_error p (below n (g_c g 1)) in
  let* c3 := nth_error p (below n (g_c g 2)) in
  let u2 := clip_vec (bnds ds) (vadd (vadd x (vscale (g_u g) (vsub c1 x))) (vscale (nth (par 1) code_F 0%Q) (vsub c2 c3))) in
  let* '(b1, b2, b3, b4, b5) := (let* ix := donors set (n - 2) (firstn 5 (g_b g)) in
                         match ix with
                         | [i1; i2; i3; i4; i5] =>
                             let* b1 := nth_error p i1 in let* b2 := nth_error p i2 in let* b3 := nth_error p i3 in
                             let* b4 := nth_error p i4 in let* b5 := nth_error p i5 in Some (b1, b2, b3, b4, b5)
                         | _ => None
                         end) in
  let v3 := clip_vec (bnds ds) (vadd (vadd b1 (vscale (g_v g) (vsub b2 b3))) (vscale (nth (par 2) code_F 0%Q) (vsub b4 b5))) in
  let u3 := blend (fun j => negb ((j =? below dim (g_jb g)) || Qltb (g_tb g j) (nth (par 2) code_CR 0%Q))) 0 x v3 in
  Some [u1; u2; u3].

(** helpers.py:209-224 ARCHIVE.UpdateArchive.  [np.unique(axis=0, return_index=True)] sorts the
    rows lexicographically and keeps the first occurrence of each (with its value); above the
    capacity a random selection is kept ([perm] is the permutation). *)
Fixpoint row_cmp (a b : list Q) : comparison :=
  match a, b with
  | [], [] => Eq
  | [], _ => Lt
  | _, [] => Gt
  | x :: a', y :: b' => match Qcompare x y with Eq => row_cmp a' b' | c => c end
  end.
Fixpoint uniq_insert (e : list Q * Q) (l : list (list Q * Q)) : list (list Q * Q) :=
  match l with
  | [] => [e]
  | f :: r => match row_cmp (fst e) (fst f) with
              | Lt => e :: f :: r
              | Eq => f :: r
              | Gt => f :: uniq_insert e r
              end
  end.
Definition uniq (l : list (list Q * Q)) : list (list Q * Q) := fold_left (fun acc e => uniq_insert e acc) l [].
Definition update_archive (cap : nat) (perm : nat -> list nat) (arch new : list (list Q * Q)) : option (list (list Q * Q)) :=
  let l := uniq (arch ++ new) in
  if cap <? length l then gather (firstn cap (perm (length l))) l else Some l.

(** [round(0.05*popsize)] of edev.py:379, to the nearest, ties to even. *)
Definition round20 (n : nat) : nat :=
  let q := n / 20 in let r := n mod 20 in
  if r <? 10 then q else if 10 <? r then S q else if Nat.even q then q else S q.

Section EDEV.
Context (expf : Q -> Q).
Context (m : mode) (fit : list Q -> Q) (ds : list dimn) (mt : imethod).

(** [self.eval_pop(rows)]. *)
Definition scores (rows : list (list Q)) : list Q := map (pt_score m fit ds) rows.
(** The loops "for discrete mutation": bounds, then discretisation, of every row. *)
Definition settle_all (alpha : Q) (vd : nat -> vdraw) (rows : list (list Q)) : option (list (list Q)) :=
  traverse (fun i v => settle expf alpha mt (vd i) ds v) 0 rows.
(** "if np.min(vals) < self.overallBestVal: ...". *)
Definition take_best (b : list Q * Q) (pop : list (list Q)) (vals : list Q) : option (list Q * Q) :=
  let* '(k, v) := argmin vals in
  if Qltb v (snd b) then let* x := nth_error pop k in Some (x, v) else Some b.

(** * JADE, edev.py:362-437 *)
(** Draws: the factors returned by randFCR (helpers.py:171-194; the regeneration loop of F and
    the clipping are not modelled: [j_F] is what it leaves, positive and at most 1, [j_CR] is in
    [0,1]; their parameters CRm = Fm = 0.5 never change, since FESj stays 0), those of gnR1R2, of the
    choice among the best, of the crossover, of the discretisation and of the archive. *)
Record jdraw : Type := JDraw {
  j_F : nat -> Q; j_CR : nat -> Q; j_r1 : nat -> nat -> nat; j_r2 : nat -> nat -> nat; j_pb : nat -> nat;
  j_mask : nat -> nat -> Q; j_col : nat -> nat; j_vd : nat -> vdraw; j_cut : nat -> list nat }.
(** edev.py:367-411: the offspring before bound check and discretisation.  The order of equal
    values in [np.argsort] is taken to be stable. *)
Definition jade_mask (d : jdraw) (n : nat) (i j : nat) : bool :=
  let dim := length ds in
  let jrand := sub2ind n (map (fun k => below dim (j_col d k) + 1) (seq 0 n)) in
  negb (existsb (Nat.eqb (i * dim + j)) jrand) && Qltb (j_CR d i) (j_mask d i j).
Definition jade_row (d : jdraw) (pop all : list (list Q)) (order r1 r2 : list nat) (i : nat) (x : list Q) : option (list Q) :=
  let n := length pop in
  let* pb := nth_error order (below (Nat.max (round20 n) 2) (j_pb d i)) in
  let* b := nth_error pop pb in
  let* i1 := nth_error r1 i in
  let* a := nth_error pop i1 in
  let* i2 := nth_error r2 i in
  let* c := nth_error all i2 in
  let v := clip_vec (bnds ds) (vadd x (vscale (j_F d i) (vsub (vadd (vsub b x) a) c))) in
  Some (blend (jade_mask d n i) 0 x v).
Definition jade_trials (d : jdraw) (arch pop : list (list Q)) (vals : list Q) : option (list (list Q)) :=
  let n := length pop in
  let all := pop ++ arch in
  let* '(r1, r2) := gnR1R2 n (n - 1) (length all - 1) (j_r1 d) (j_r2 d) in
  let order := map fst (sort_asc snd (combine (seq 0 n) vals)) in
  traverse (jade_row d pop all order r1 r2) 0 pop.
(** edev.py:420-425: the better value, and the offspring where it is at least as good as the
    better value. *)
Definition jade_vals (vals voff : list Q) : list Q := map2 qmin2 vals voff.
Definition jade_wins (vals voff : list Q) : list bool := map2 (fun o v => Qle_bool o v) voff (jade_vals vals voff).
Definition pick_rows {A} (w : list bool) (off pop : list A) : list A :=
  map2 (fun (b : bool) (op : A * A) => if b then fst op else snd op) w (combine off pop).
(** [popold[I,:]] with [valParents[I]]: the replaced parents, with the new values. *)
Definition replaced {A} (w : list bool) (pv : list A) : list A :=
  map snd (filter (fun e : bool * A => fst e) (combine w pv)).

(** * CoDE, edev.py:442-485 *)
Record cdraw : Type := CDraw { c_g : nat -> gdraw; c_vd : nat -> vdraw }.
Definition code_trials (d : cdraw) (pop : list (list Q)) : option (list (list Q)) :=
  let* l := traverse (fun i _ => generator pop ds i (c_g d i)) 0 pop in Some (concat l).
(** One individual, edev.py:465-473: the first best of its three trials replaces it if it is at
    least as good. *)
Definition code_pick (uset : list (list Q)) (fset : list Q) (i : nat) (xv : list Q * Q) : option (list Q * Q) :=
  let* '(k, _) := argmin (firstn 3 (skipn (3 * i) fset)) in
  let* u := nth_error uset (3 * i + k) in
  let* f := nth_error fset (3 * i + k) in
  Some (if Qle_bool f (snd xv) then (u, f) else xv).

(** * EPSDE, edev.py:490-600 *)
(** The pools, edev.py:312-313. *)
Definition ep_FF : list Q := [4 # 10; 5 # 10; 6 # 10; 7 # 10; 8 # 10; 9 # 10]%Q.
Definition ep_CR : list Q := [1 # 10; 2 # 10; 3 # 10; 4 # 10; 5 # 10; 6 # 10; 7 # 10; 8 # 10; 9 # 10]%Q.
Record para : Type := Para { q_str : nat; q_CR : Q; q_F : Q }.
Record pdraw : Type := PDraw {
  p_use : nat -> Q; p_rr : nat -> nat; p_old : nat -> nat; p_str : nat -> nat; p_cr : nat -> nat; p_ff : nat -> nat;
  p_mui : nat -> nat -> Q; p_ddd : nat -> nat; p_norm : nat -> nat -> Q; p_ind : nat -> nat -> list nat;
  p_rand : nat -> nat -> Q; p_reset : nat -> nat -> Q; p_vd : nat -> vdraw }.
(** edev.py:500-517: strategy and parameters of individual [k], and RR[k]; [spara] is the
    permutation of 0,1,2 of line 314.  [len(RR) < I_NP] is never true. *)
Definition ep_para (d : pdraw) (spara : list nat) (gen : nat) (rate : Q) (pp : list para) (k : nat) : option (para * nat) :=
  if negb (gen =? 0) && Qle_bool (p_use d k) rate && negb (length pp =? 0) then
    let* q := nth_error pp (below (length pp) (p_old d k)) in Some (q, below (length pp) (p_rr d k))
  else
    let* s := nth_error spara (below (length spara) (p_str d k)) in
    let* c := nth_error ep_CR (below 9 (p_cr d k)) in
    let* f := nth_error ep_FF (below 6 (p_ff d k)) in
    Some (Para s c f, 0).
(** edev.py:526-569: the trial of individual [i] before bound check and discretisation; [bm] is
    FVr_bestmem.  [p_ind I_NP i] is the permutation drawn. *)
Definition ep_trial (d : pdraw) (bm : list Q) (pop : list (list Q)) (q : para) (i : nat) (x : list Q) : option (list Q) :=
  let dim := length ds in
  let hit j := Qltb (p_mui d i j) (q_CR q) in
  let mui j := hit j || (negb (existsb hit (seq 0 dim)) && (j =? below dim (p_ddd d i))) in
  let par := vdrawn (p_norm d i) dim in
  let row k := (let* j := nth_error (p_ind d (length pop) i) k in nth_error pop j) in
  let* u := match q_str q with
            | 0 => let* p3 := row 0 in let* p4 := row 1 in let* p5 := row 2 in let* p6 := row 3 in
                   Some (blend (fun j => negb (mui j)) 0 x (vadd bm (vmul (vsub (vadd (vsub p3 p4) p5) p6) par)))
            | 1 => let* p7 := row 0 in let* p8 := row 1 in let* p9 := row 2 in
                   Some (blend (fun j => negb (mui j)) 0 x (vadd p7 (vmul par (vsub p8 p9))))
            | 2 => let* p1 := row 0 in let* p2 := row 1 in let* p3 := row 2 in
                   Some (vadd (vadd x (vmul (vdrawn (p_rand d i) dim) (vsub p1 x))) (vmul par (vsub p2 p3)))
            | _ => Some (map (fun _ => 0%Q) ds)
            end in
  let lo := map d_lo ds in
  let hi := map d_hi ds in
  let out := existsb (fun b => b) (map2 Qltb u lo) || existsb (fun b => b) (map2 (fun a b => Qltb b a) u hi) in
  Some (if out then vadd lo (vmul (vsub hi lo) (vdrawn (p_reset d i) dim)) else u).
(** edev.py:578-591: state of the selection loop: best member and value of EPSDE, PPara, RRR,
    count. *)
Record psel : Type := PSel { s_bm : list Q * Q; s_pp : list para; s_rrr : list nat; s_cnt : nat }.
Definition ep_step (s : psel) (e : (list Q * Q) * (list Q * Q) * (para * nat)) : psel * (list Q * Q) :=
  let '(xv, uf, (q, rr)) := e in
  if Qltb (snd uf) (snd xv) then
    (PSel (if Qltb (snd uf) (snd (s_bm s)) then uf else s_bm s) (s_pp s ++ [q])
          (if rr =? 0 then s_rrr s else s_rrr s ++ [rr]) (s_cnt s), uf)
  else (PSel (s_bm s) (s_pp s) (s_rrr s) (S (s_cnt s)), xv).
Fixpoint ep_select (s : psel) (l : list ((list Q * Q) * (list Q * Q) * (para * nat))) : psel * list (list Q * Q) :=
  match l with
  | [] => (s, [])
  | e :: r => let '(s1, xv) := ep_step s e in let '(s2, out) := ep_select s1 r in (s2, xv :: out)
  end.
(** [np.delete(PPara, RRR, axis=0)] (None: IndexError). *)
Definition np_delete {A} (l : list A) (idx : list nat) : option (list A) :=
  if forallb (fun i => i <? length l) idx
  then Some (map snd (filter (fun e : nat * A => negb (existsb (Nat.eqb (fst e)) idx)) (combine (seq 0 (length l)) l)))
  else None.
Definition qmean (l : list Q) : Q := (qsum_list l / qnat (length l))%Q.

(** * The generations *)
Record edraw : Type := EDraw { e_perm : list nat; e_j : jdraw; e_c : cdraw; e_p : pdraw }.
(** arrayFirst (JADE), arraySecond (CoDE), arrayThird (EPSDE). *)
Record groups : Type := Groups { g1 : list nat; g2 : list nat; g3 : list nat }.
(** edev.py:346-361. *)
Definition split_groups (s win : nat) (perm : list nat) : groups :=
  let a := firstn s perm in let b := firstn s (skipn s perm) in let c := skipn (2 * s) perm in
  match win with
  | 0 => Groups c b a
  | 1 => Groups b c a
  | _ => Groups a b c
  end.

(** mixPop, mixVal; best_position with overallBestVal; archive; FVr_bestmem with F_bestval;
    arrayGbestChange; indexBestLN; the arrays of the current generation; PPara; rate; RATE; history
    (global, JADE, CoDE, EPSDE); ghosts: evaluated points, and (partition, mixPop, mixVal) at the end
    of every generation. *)
Record estate : Type := ESt {
  x_pop : list (list Q); x_val : list Q; x_best : list Q * Q; x_arch : list (list Q * Q); x_bm : list Q * Q;
  x_chg : list Q; x_win : nat; x_grp : groups; x_pp : list para; x_rates : list Q; x_rate : Q;
  x_hist : list (Q * Q * Q * Q); x_log : list (list Q); x_trace : list (groups * list (list Q) * list Q) }.

(** [np.sum(old - new)] added to entry [k] of arrayGbestChange. *)
Definition add_change (k : nat) (old new chg : list Q) : list Q :=
  set_nth chg k (nth k chg 0 + qsum_list (vsub old new))%Q.

(** edev.py:335-344: the best performing variant is chosen every [ng] generations from the
    changes per evaluation.  An empty sub-population gives inf here and an exception later: it
    raises at once in the model. *)
Definition rewarded (ng gen : nat) (st : estate) : option (nat * list Q) :=
  if ng =? 0 then None
  else if gen mod ng =? 0 then
    let n1 := length (g1 (x_grp st)) in let n2 := length (g2 (x_grp st)) in let n3 := length (g3 (x_grp st)) in
    if (n1 =? 0) || (n2 =? 0) || (n3 =? 0) then None
    else let* '(w, _) := argmax [nth 0 (x_chg st) 0 / qnat n1; nth 1 (x_chg st) 0 / qnat (n2 * 3); nth 2 (x_chg st) 0 / qnat n3]%Q in
         Some (w, [1; 1; 1]%Q)
  else Some (x_win st, x_chg st).

(** edev.py:328-620, the body of [while gen < ngen]. *)
Definition ed_gen (s cap ngen ng : nat) (spara : list nat) (dr : nat -> edraw) (gen : nat) (st : estate) : option estate :=
  let d := dr gen in
  let alpha := anneal1 gen ngen in
  let* '(win, chg) := rewarded ng gen st in
  let grp := split_groups s win (e_perm d) in
  (* JADE *)
  let* pop1 := gather (g1 grp) (x_pop st) in
  let* val1 := gather (g1 grp) (x_val st) in
  let* raw1 := jade_trials (e_j d) (map fst (x_arch st)) pop1 val1 in
  let* off1 := settle_all alpha (j_vd (e_j d)) raw1 in
  let voff1 := scores off1 in
  let new1 := jade_vals val1 voff1 in
  let w := jade_wins val1 voff1 in
  let* arch := update_archive cap (j_cut (e_j d)) (x_arch st) (replaced w (combine pop1 new1)) in
  let pop1' := pick_rows w off1 pop1 in
  let* best1 := take_best (x_best st) pop1' new1 in
  let* '(_, y1) := argmin new1 in
  let chg := add_change 0 val1 new1 chg in
  let P := scatter (g1 grp) pop1' (x_pop st) in
  let V := scatter (g1 grp) new1 (x_val st) in
  (* CoDE *)
  let* pop2 := gather (g2 grp) P in
  let* val2 := gather (g2 grp) V in
  let* raw2 := code_trials (e_c d) pop2 in
  let* off2 := settle_all alpha (c_vd (e_c d)) raw2 in
  let voff2 := scores off2 in
  let* pv2 := traverse (code_pick off2 voff2) 0 (combine pop2 val2) in
  let pop2' := map fst pv2 in
  let new2 := map snd pv2 in
  let* best2 := take_best best1 pop2' new2 in
  let* '(_, y2) := argmin new2 in
  let chg := add_change 1 val2 new2 chg in
  let P := scatter (g2 grp) pop2' P in
  let V := scatter (g2 grp) new2 V in
  (* EPSDE *)
  let* pop3 := gather (g3 grp) P in
  let* val3 := gather (g3 grp) V in
  let* pars := traverse (fun k _ => ep_para (e_p d) spara gen (x_rate st) (x_pp st) k) 0 pop3 in
  let* raw3 := traverse (fun i (xq : list Q * (para * nat)) => ep_trial (e_p d) (fst (x_bm st)) pop3 (fst (snd xq)) i (fst xq))
                        0 (combine pop3 pars) in
  let* off3 := settle_all alpha (p_vd (e_p d)) raw3 in
  let voff3 := scores off3 in
  let '(sel, pv3) := ep_select (PSel (x_bm st) (x_pp st) [] 0)
                               (combine (combine (combine pop3 val3) (combine off3 voff3)) pars) in
  let pop3' := map fst pv3 in
  let new3 := map snd pv3 in
  let* best3 := take_best best2 pop3' new3 in
  let* '(_, y3) := argmin new3 in
  let chg := add_change 2 val3 new3 chg in
  let P := scatter (g3 grp) pop3' P in
  let V := scatter (g3 grp) new3 V in
  let* pp := np_delete (s_pp sel) (s_rrr sel) in
  let rates := x_rates st ++ [(qnat (s_cnt sel) / qnat (length pop3))%Q] in
  let rate := if 10 <? gen then qmean (firstn 10 (skipn (gen - 10) rates)) else qmean rates in
  Some (ESt P V best3 arch (s_bm sel) chg win grp pp rates rate
            (x_hist st ++ [(as_min m (snd best3), as_min m y1, as_min m y2, as_min m y3)])
            (x_log st ++ map (pt_arg ds) (off1 ++ off2 ++ off3))
            (x_trace st ++ [(grp, P, V)])).

Record eresult : Type := ERes {
  er_x : list Q; er_y : Q; er_hist : list (Q * Q * Q * Q); er_pop : list (list Q); er_fits : list Q;
  er_log : list (list Q); er_again : list (list Q); er_start : list (list Q) * list Q;
  er_trace : list (groups * list (list Q) * list Q) }.

(** Draws of the start: discretisation of the population, first permutation, discretisation of
    the third sub-population, permutation of the strategies. *)
Record sdraw : Type := SDraw { i_vd : nat -> vdraw; i_perm : list nat; i_vd3 : nat -> vdraw; i_spara : list nat }.

(** [int(lambda_*npop)] and the check of the constructor, edev.py:95-97. *)
Definition slice_index (lambda : Q) (npop : nat) : option nat :=
  let s := Z.to_nat (trunc (lambda * qnat npop)) in if s <=? 6 then None else Some s.

(** evolute, edev.py:205-664, from the initial positions (x0, or [npop] samples).  [er_again] are
    the points of the third sub-population evaluated again at lines 298-304 (the rows are copies:
    mixPop keeps the positions of the first evaluation). *)
Definition ed_evolute (lambda : Q) (npop ngen ng : nat) (sd : sdraw) (dr : nat -> edraw) (init : list (list Q)) : option eresult :=
  let* s := slice_index lambda npop in
  if negb (ng <? ngen) then None
  else if negb (length init =? npop) then None
  else
    let* pop := settle_all 1 (i_vd sd) init in
    let vals := scores pop in
    let* '(k, y) := argmin vals in
    let* x := nth_error pop k in
    let grp := split_groups s 0 (i_perm sd) in
    let* third := gather (g3 grp) pop in
    let* again := settle_all 1 (i_vd3 sd) third in
    let* '(k3, y3) := argmin (scores again) in
    let* x3 := nth_error again k3 in
    let st := ESt pop vals (x, y) [] (x3, y3) [1; 1; 1]%Q 0 grp [] [] 0%Q [] (map (pt_arg ds) pop) [] in
    let* st := gens (ed_gen s (length (g1 grp)) ngen ng (i_spara sd) dr) 0 ngen st in
    Some (ERes (fst (x_best st)) (as_min m (snd (x_best st))) (x_hist st) (x_pop st) (map (as_min m) (x_val st))
               (x_log st) (map (pt_arg ds) again) (pop, vals) (x_trace st)).
End EDEV.
