(** Model of the CEC'2008 and CEC'2017 benchmark functions
    (neorl/benchmarks/cec08.py, neorl/benchmarks/cec17.py, neorl/benchmarks/tools/basic.py,
    neorl/benchmarks/tools/transforms.py).

    Floats are exact real numbers; an exception is [None].  The data files (shift vectors, rotation
    matrices, permutations) are given from outside.  [rsum], [rprod], [sq], [rpow], [pairs], [enum] are the
    Python idioms named in BM_Model.v. *)
From Coq Require Import List Bool Arith Reals.
From Verif Require Import BM_Model.
Import ListNotations.
Open Scope R_scope.

Definition obind {A B} (o : option A) (f : A -> option B) : option B := match o with Some a => f a | None => None end.
(** x - shift for two vectors of the same length (numpy raises otherwise). *)
Definition vsub (x s : list R) : option (list R) :=
  if (length x =? length s)%nat then Some (map (fun p => fst p - snd p) (combine x s)) else None.
(** k * x. *)
Definition vscale (k : R) (x : list R) : list R := map (fun a => k * a) x.
(** np.matmul(rotation, v): raises unless every row is as long as v.  Simplification: only square matrices are
    accepted (numpy would also take one with a different number of rows). *)
Definition matvec (m : list (list R)) (v : list R) : option (list R) :=
  if (length m =? length v)%nat && forallb (fun r => length r =? length v)%nat m then Some (map (fun r => rsum (map (fun p => fst p * snd p) (combine r v))) m) else None.
(** The floor of a real number (np.floor), a % m for m > 0, and np.round: here halves are rounded up and not
    to the even neighbour, which does not change the distance |t - np.round(t)|. *)
Definition rfloor (x : R) : R := IZR (Int_part x).
Definition rmod (a m : R) : R := a - m * rfloor (a / m).
Definition rround (x : R) : R := rfloor (x + 1 / 2).

(* ---------- tools/basic.py ---------- *)
(** basic.py:19-24 (10e6 is 10^7). *)
Definition bent_cigar (x : list R) : option R :=
  match x with [] => None | a :: t => Some (a * a + 10000000 * rsum (map sq t)) end.
(** basic.py:26-30. *)
Definition sum_diff_pow (x : list R) : option R := Some (rsum (map (fun ix => Rabs (snd ix) ^ (fst ix + 1)) (enum 0 x))).
(** basic.py:32-42. *)
Definition b_zakharov (x : list R) : option R :=
  let sm := 1 / 2 * rsum (map (fun ix => (INR (fst ix) + 1) * snd ix) (enum 0 x)) in
  let sm := sm * sm in Some (rsum (map sq x) + sm + sm * sm).
(** basic.py:44-53. *)
Definition b_rosenbrock (x : list R) : option R :=
  let y := map (fun a => 2048 / 100000 * a + 1) x in
  Some (rsum (map (fun p => 100 * sq (fst p * fst p - snd p) + sq (fst p - 1)) (pairs y))).
(** basic.py:55-64. *)
Definition b_rastrigin (x : list R) : option R :=
  let y := vscale (512 / 10000) x in
  Some (rsum (map (fun a => a * a - 10 * cos (2 * PI * a)) y) + 10 * INR (length x)).
(** basic.py:66-75. *)
Definition expanded_schaffers_f6 (x : list R) : option R :=
  Some (rsum (map (fun p => let t := fst p * fst p + snd p * snd p in
                            let t1 := sq (sin (sqrt t)) - 1 / 2 in
                            let t2 := sq (1 + 1 / 1000 * t) in 1 / 2 + t1 / t2) (pairs x))).
(** basic.py:77-118: with fewer than two coordinates s is negative, the root of (mu0*mu0-1)/s complex and the
    comparison of t1 and t2 raises. *)
Definition lun_s (n : nat) : R := 1 - 1 / (2 * sqrt (INR n + 20) - 82 / 10).
Definition lun_mu1 (n : nat) : R := - sqrt ((25 / 10 * (25 / 10) - 1) / lun_s n).
Definition lunacek_bi_rastrigin (x shift : list R) (rotation : option (list (list R))) : option R :=
  let n := length x in
  if (n <? 2)%nat then None
  else obind (vsub x shift) (fun d =>
    let y := vscale (1 / 10) d in
    let z := map (fun p => let a := 2 * fst p in if Rlt_dec (snd p) 0 then - a else a) (combine y shift) in
    let tmpx := map (fun a => a + 25 / 10) z in
    let t1 := rsum (map (fun a => sq (a - 25 / 10)) tmpx) in
    let t2 := lun_s n * rsum (map (fun a => sq (a - lun_mu1 n)) tmpx) + INR n in
    obind (match rotation with None => Some z | Some m => matvec m z end) (fun y =>
    let t := rsum (map (fun a => cos (2 * PI * a)) y) in
    let r := if Rlt_dec t1 t2 then t1 else t2 in
    Some (r + 10 * (INR n - t)))).
(** basic.py:120-136: the value, and the caller's vector, which is rounded in place. *)
Definition ncr_round (xs : R * R) : R :=
  let d := fst xs - snd xs in if Rlt_dec (1 / 2) (Rabs d) then snd xs + rfloor (2 * d + 1 / 2) / 2 else fst xs.
Definition non_cont_rastrigin (x shift : list R) (rotation : list (list R)) : option (R * list R) :=
  if (length x =? length shift)%nat then
    let x' := map ncr_round (combine x shift) in
    obind (vsub x' shift) (fun d =>
    obind (matvec rotation (vscale (512 / 10000) d)) (fun z =>
    Some (rsum (map (fun a => a * a - 10 * cos (2 * PI * a) + 10) z), x')))
  else None.
(** basic.py:138-156. *)
Definition b_levy (x : list R) : option R :=
  let w := map (fun a => 1 + 25 / 100 * (a - 1)) x in
  match w with
  | [] => None
  | w0 :: _ =>
      let wl := last w 0 in
      Some (sq (sin (PI * w0)) + rsum (map (fun wi => sq (wi - 1) * (1 + 10 * sq (sin (PI * wi + 1)))) (removelast w))
            + sq (wl - 1) * (1 + sq (sin (2 * PI * wl))))
  end.
(** basic.py:158-177. *)
Definition ms_shift : R := 4209687462275036 / 10 ^ 13.
Definition ms_term (n : nat) (z : R) : R :=
  if Rlt_dec z (-500) then let zm := rmod (Rabs z) 500 - 500 in zm * sin (sqrt (Rabs zm)) - sq (z + 500) / (10000 * INR n)
  else if Rlt_dec 500 z then let zm := 500 - rmod z 500 in zm * sin (sqrt (Rabs zm)) - sq (z - 500) / (10000 * INR n)
  else z * sin (sqrt (Rabs z)).
Definition modified_schwefel (x : list R) : option R :=
  let n := length x in
  Some (4189829 / 10000 * INR n - rsum (map (fun a => ms_term n (10 * a + ms_shift)) x)).
(** basic.py:179-184: one coordinate divides by zero. *)
Definition high_conditioned_elliptic (x : list R) : option R :=
  if (length x =? 1)%nat then None
  else let factor := 6 / (INR (length x) - 1) in
       Some (rsum (map (fun ix => sq (snd ix) * Rpower 10 (INR (fst ix) * factor)) (enum 0 x))).
(** basic.py:186-190. *)
Definition discus (x : list R) : option R :=
  match x with [] => None | a :: t => Some (1000000 * a * a + rsum (map sq t)) end.
(** basic.py:192-200. *)
Definition b_ackley (x : list R) : option R :=
  match x with
  | [] => None
  | _ => let inx := 1 / INR (length x) in
         Some (- 20 * exp (- (2 / 10) * sqrt (inx * rsum (map sq x))) - exp (inx * rsum (map (fun a => cos (2 * PI * a)) x)) + 20 + exp 1)
  end.
(** basic.py:202-218. *)
Definition weierstrass (x : list R) : option R :=
  let y := vscale (5 / 1000) x in
  let ks := seq 0 21 in
  Some (rsum (map (fun a => rsum (map (fun k => (1 / 2) ^ k * cos (2 * (a + 1 / 2) * (PI * 3 ^ k))) ks)) y)
        - INR (length x) * rsum (map (fun k => (1 / 2) ^ k * cos (PI * 3 ^ k)) ks)).
(** basic.py:220-229: the cosines are taken of x[i]/(i+1), not of x[i]/sqrt(i+1). *)
Definition b_griewank (x : list R) : option R :=
  let y := vscale 6 x in
  Some (rsum (map (fun a => 1 / 4000 * a * a) y) - rprod (map (fun ix => cos (snd ix / (INR (fst ix) + 1))) (enum 0 y)) + 1).
(** basic.py:231-245. *)
Definition kat_sum (a : R) : R := rsum (map (fun j => Rabs (2 ^ j * a - rround (2 ^ j * a)) / 2 ^ j) (seq 1 32)).
Definition katsuura (x : list R) : option R :=
  match x with
  | [] => None
  | _ => let y := vscale (5 / 100) x in
         let n := INR (length x) in
         let pw := 10 / Rpower n (12 / 10) in
         let prd := rprod (map (fun ix => Rpower (1 + (INR (fst ix) + 1) * kat_sum (snd ix)) pw) (enum 0 y)) in
         let df := 10 / (n * n) in Some (df * prd - df)
  end.
(** basic.py:247-255. *)
Definition happy_cat (x : list R) : option R :=
  match x with
  | [] => None
  | _ => let y := map (fun a => 5 / 100 * a - 1) x in
         let n := INR (length x) in
         let sm := rsum y in let smsq := rsum (map sq y) in
         Some (rpow (Rabs (smsq - n)) (1 / 4) + (1 / 2 * smsq + sm) / n + 1 / 2)
  end.
(** basic.py:257-265. *)
Definition h_g_bat (x : list R) : option R :=
  match x with
  | [] => None
  | _ => let y := map (fun a => 5 / 100 * a - 1) x in
         let n := INR (length x) in
         let sm := rsum y in let smsq := rsum (map sq y) in
         Some (rpow (Rabs (smsq * smsq - sm * sm)) (1 / 2) + (1 / 2 * smsq + sm) / n + 1 / 2)
  end.
(** basic.py:267-280: the term of the pair (last, first) is added once per pair of neighbours. *)
Definition gr_term (a b : R) : R :=
  let temp := 100 * sq (a * a - b) + sq (a - 1) in temp * temp / 4000 - cos temp + 1.
Definition expanded_griewanks_plus_rosenbrock (x : list R) : option R :=
  let y := map (fun a => 5 / 100 * a + 1) x in
  Some (rsum (map (fun p => gr_term (fst p) (snd p) + gr_term (last y 0) (hd 0 y)) (pairs y))).
(** basic.py:282-296: one coordinate divides by zero. *)
Definition schaffers_f7 (x : list R) : option R :=
  let n := length x in
  if (n =? 1)%nat then None
  else let sm := rsum (map (fun p => let si := sqrt (fst p * fst p + snd p * snd p) in
                                     let tmp := sin (50 * rpow si (2 / 10)) in rpow si (1 / 2) * (tmp * tmp + 1)) (pairs x)) in
       Some (sm * sm / (INR n * INR n - 2 * INR n + 1)).

(* ---------- cec17.py, f1 - f10 ---------- *)
(** cec17.py:22-39, 41-62, 64-81, 83-100, 102-119, 121-138, 178-195, 197-214: f1-f6, f9 and f10 rotate x - shift. *)
Definition simple_fun (k : nat) : list R -> option R :=
  match k with
  | 1 => bent_cigar | 2 => sum_diff_pow | 3 => b_zakharov | 4 => b_rosenbrock | 5 => b_rastrigin | 6 => schaffers_f7 | 9 => b_levy | _ => modified_schwefel
  end%nat.
Definition rotated (rotation : list (list R)) (shift x : list R) : option (list R) := obind (vsub x shift) (matvec rotation).
(** The value of f1 .. f10 and the caller's vector afterwards; cec17.py:140-157 (f7), 159-176 (f8). *)
Definition f_simple (k : nat) (rotation : list (list R)) (shift x : list R) : option (R * list R) :=
  match k with
  | 7%nat => obind (lunacek_bi_rastrigin x shift (Some rotation)) (fun v => Some (v + 700, x))
  | 8%nat => obind (non_cont_rastrigin x shift rotation) (fun vx => Some (fst vx + 800, snd vx))
  | _ => obind (rotated rotation shift x) (fun z => obind (simple_fun k z) (fun v => Some (v + 100 * INR k, x)))
  end.

(* ---------- cec17.py, f11 - f20 ---------- *)
(** x[shuffle[i]] for i < len(x). *)
Fixpoint shuffled (x : list R) (idx : list nat) : option (list R) :=
  match idx with
  | [] => Some []
  | i :: r => obind (nth_error x i) (fun a => obind (shuffled x r) (fun l => Some (a :: l)))
  end.
(** cec17.py:216-242 _shuffle_and_partition.  Percentages are given in tenths: np.ceil(p * nx) is
    (t * nx + 9) / 10 (for 10, 20, 30, 50 and 100 coordinates also in floating point). *)
Fixpoint split_parts (nx : nat) (xs : list R) (tenths : list nat) : list (list R) :=
  match tenths with
  | [] | [_] => [xs]
  | t :: r => let k := ((t * nx + 9) / 10)%nat in firstn k xs :: split_parts nx (skipn k xs) r
  end.
Definition shuffle_and_partition (x : list R) (shuffle : list nat) (tenths : list nat) : option (list (list R)) :=
  if (length shuffle <? length x)%nat then None
  else obind (shuffled x (firstn (length x) shuffle)) (fun xs => Some (split_parts (length x) xs tenths)).
(** cec17.py:244-544: the parts of f11 .. f20 and the functions applied to them. *)
Definition hybrid_parts (k : nat) : list nat :=
  match k with
  | 11 => [2; 4; 4] | 12 => [3; 3; 4] | 13 => [3; 3; 4] | 14 => [2; 2; 2; 4] | 15 => [2; 2; 3; 3] | 16 => [2; 2; 3; 3]
  | 17 => [1; 2; 2; 2; 3] | 18 => [2; 2; 2; 2; 2] | 19 => [2; 2; 2; 2; 2] | _ => [1; 1; 2; 2; 2; 2]
  end%nat.
Definition lunacek0 (x : list R) : option R := lunacek_bi_rastrigin x (repeat 0 (length x)) None.
Definition hybrid_funs (k : nat) : list (list R -> option R) :=
  match k with
  | 11 => [b_zakharov; b_rosenbrock; b_rastrigin]
  | 12 => [high_conditioned_elliptic; modified_schwefel; bent_cigar]
  | 13 => [bent_cigar; b_rosenbrock; lunacek0]
  | 14 => [high_conditioned_elliptic; b_ackley; schaffers_f7; b_rastrigin]
  | 15 => [bent_cigar; h_g_bat; b_rastrigin; b_rosenbrock]
  | 16 => [expanded_schaffers_f6; h_g_bat; b_rosenbrock; modified_schwefel]
  | 17 => [katsuura; b_ackley; expanded_griewanks_plus_rosenbrock; modified_schwefel; b_rastrigin]
  | 18 => [high_conditioned_elliptic; b_ackley; b_rastrigin; h_g_bat; discus]
  | 19 => [bent_cigar; b_rastrigin; expanded_griewanks_plus_rosenbrock; weierstrass; expanded_schaffers_f6]
  | _ => [happy_cat; katsuura; b_ackley; b_rastrigin; modified_schwefel; schaffers_f7]
  end%nat.
Fixpoint sum_parts (fs : list (list R -> option R)) (ps : list (list R)) : option R :=
  match fs, ps with
  | f :: fs', p :: ps' => obind (f p) (fun v => obind (sum_parts fs' ps') (fun w => Some (v + w)))
  | _, _ => Some 0
  end.
Definition f_hybrid (k : nat) (rotation : list (list R)) (shift : list R) (shuffle : list nat) (x : list R) : option R :=
  obind (rotated rotation shift x) (fun z =>
  obind (shuffle_and_partition z shuffle (hybrid_parts k)) (fun parts =>
  obind (sum_parts (hybrid_funs k) parts) (fun y => Some (y + 100 * INR k)))).

(* ---------- cec17.py, f21 - f30 ---------- *)
(** A float: a number, +infinity or not-a-number.  The signs of infinities are not needed. *)
Inductive fl : Type := Fin (r : R) | Inf | NaN.
Definition fadd (a b : fl) : fl :=
  match a, b with Fin x, Fin y => Fin (x + y) | NaN, _ | _, NaN => NaN | _, _ => Inf end.
Definition fmul (a b : fl) : fl :=
  match a, b with
  | Fin x, Fin y => Fin (x * y) | NaN, _ | _, NaN => NaN
  | Fin x, Inf | Inf, Fin x => if Req_EM_T x 0 then NaN else Inf
  | Inf, Inf => Inf
  end.
(** a / b for b <> 0. *)
Definition fdiv (a b : fl) : fl :=
  match a, b with Fin x, Fin y => Fin (x / y) | NaN, _ | _, NaN => NaN | Fin _, Inf => Fin 0 | Inf, Fin _ => Inf | Inf, Inf => NaN end.
Definition fsum (l : list fl) : fl := fold_right fadd (Fin 0) l.
(** cec17.py:546-555 _calc_w. *)
Definition calc_w (x : list R) (sigma : R) : fl :=
  let w := rsum (map sq x) in
  if Req_EM_T w 0 then Inf else Fin (sqrt (1 / w) * exp (- w / (2 * INR (length x) * sigma * sigma))).
(** w /= w_sm, or equal weights if w_sm is zero. *)
Definition weights (w : list fl) : list fl :=
  let s := fsum w in
  let div := map (fun a => fdiv a s) w in
  match s with
  | Fin r => if Req_EM_T r 0 then map (fun _ => Fin (1 / INR (length w))) w else div
  | _ => div
  end.
(** One component: the value of its function before weighting, sigma, lambda, bias. *)
Record comp : Type := { c_sigma : R; c_lambda : R; c_bias : R }.
Definition mk (s l b : R) : comp := {| c_sigma := s; c_lambda := l; c_bias := b |}.
(** np.sum(w * (lambdas*vals + biases)) + total. *)
Definition compose (cs : list comp) (vals : list R) (shifted : list (list R)) (total : R) : fl :=
  let w := weights (map (fun p => calc_w (snd p) (c_sigma (fst p))) (combine cs shifted)) in
  fadd (fsum (map (fun p => fmul (fst p) (Fin (c_lambda (fst (snd p)) * snd (snd p) + c_bias (fst (snd p))))) (combine w (combine cs vals)))) (Fin total).
(** The functions, sigmas, lambdas and biases: cec17.py:557-594, 596-633, 635-672, 674-711, 713-750, 752-791,
    793-836, 838-881. *)
Definition comp_funs (k : nat) : list (list R -> option R) :=
  match k with
  | 21 => [b_rosenbrock; high_conditioned_elliptic; b_rastrigin]
  | 22 => [b_rastrigin; b_griewank; modified_schwefel]
  | 23 => [b_rosenbrock; b_ackley; modified_schwefel; b_rastrigin]
  | 24 => [b_ackley; high_conditioned_elliptic; b_griewank; b_rastrigin]
  | 25 => [b_rastrigin; happy_cat; b_ackley; discus; b_rosenbrock]
  | 26 => [expanded_schaffers_f6; modified_schwefel; b_griewank; b_rosenbrock; b_rastrigin]
  | 27 => [h_g_bat; b_rastrigin; modified_schwefel; bent_cigar; high_conditioned_elliptic; expanded_schaffers_f6]
  | _ => [b_ackley; b_griewank; discus; b_rosenbrock; happy_cat; expanded_schaffers_f6]
  end%nat.
Definition comp_consts (k : nat) : list comp :=
  match k with
  | 21%nat => [mk 10 1 0; mk 20 (/ 10 ^ 6) 100; mk 30 1 200]
  | 22%nat => [mk 10 1 0; mk 20 10 100; mk 30 1 200]
  | 23%nat => [mk 10 1 0; mk 20 10 100; mk 30 1 200; mk 40 1 300]
  | 24%nat => [mk 10 1 0; mk 20 (/ 10 ^ 6) 100; mk 30 10 200; mk 40 1 300]
  | 25%nat => [mk 10 10 0; mk 20 1 100; mk 30 10 200; mk 40 (/ 10 ^ 6) 300; mk 50 1 400]
  | 26%nat => [mk 10 (5 / 10 ^ 4) 0; mk 20 1 100; mk 20 10 200; mk 30 1 300; mk 40 10 400]
  | 27%nat => [mk 10 10 0; mk 20 10 100; mk 30 (25 / 10) 200; mk 40 (/ 10 ^ 26) 300; mk 50 (/ 10 ^ 6) 400; mk 60 (5 / 10 ^ 4) 500]
  | 28%nat => [mk 10 10 0; mk 20 10 100; mk 30 (/ 10 ^ 6) 200; mk 40 1 300; mk 50 1 400; mk 60 (5 / 10 ^ 4) 500]
  | _ => [mk 10 1 0; mk 30 1 100; mk 50 1 200]
  end.
(** x - shifts[i][:nx]. *)
Definition shifted_by (shift x : list R) : option (list R) := vsub x (firstn (length x) shift).
(** The loop over the components: values and shifted vectors. *)
Fixpoint comp_loop (fs : list (list R -> option R)) (rots : list (list (list R))) (shifts : list (list R)) (x : list R) : option (list R * list (list R)) :=
  match fs, rots, shifts with
  | [], _, _ => Some ([], [])
  | f :: fs', m :: rots', s :: shifts' =>
      obind (shifted_by s x) (fun d => obind (matvec m d) (fun z => obind (f z) (fun v =>
      obind (comp_loop fs' rots' shifts' x) (fun r => Some (v :: fst r, d :: snd r)))))
  | _, _, _ => None
  end.
Definition f_comp (k : nat) (rots : list (list (list R))) (shifts : list (list R)) (x : list R) : option fl :=
  obind (comp_loop (comp_funs k) rots shifts x) (fun r => Some (compose (comp_consts k) (fst r) (snd r) (100 * INR k))).
(** cec17.py:883-925, 927-967: f29 and f30 compose hybrid functions, minus their offsets. *)
Definition comp_hybrids (k : nat) : list nat := match k with 29 => [15; 16; 17] | _ => [15; 18; 19] end%nat.
Fixpoint hybrid_loop (hs : list nat) (rots : list (list (list R))) (shifts : list (list R)) (shuffles : list (list nat)) (x : list R) : option (list R * list (list R)) :=
  match hs, rots, shifts, shuffles with
  | [], _, _, _ => Some ([], [])
  | h :: hs', m :: rots', s :: shifts', q :: shuffles' =>
      obind (shifted_by s x) (fun d => obind (f_hybrid h m (firstn (length x) s) q x) (fun v =>
      obind (hybrid_loop hs' rots' shifts' shuffles' x) (fun r => Some ((v - 100 * INR h) :: fst r, d :: snd r))))
  | _, _, _, _ => None
  end.
Definition f_comp_hybrid (k : nat) (rots : list (list (list R))) (shifts : list (list R)) (shuffles : list (list nat)) (x : list R) : option fl :=
  obind (hybrid_loop (comp_hybrids k) rots shifts shuffles x) (fun r => Some (compose (comp_consts k) (fst r) (snd r) (100 * INR k))).

(* ---------- the public functions with the official data ---------- *)
(** transforms.py:26-80: the tables; [rot nx i] is rotations[nx][i], [rot_cf nx i] is rotations_cf[nx][i], etc. *)
Record tables : Type := {
  rot : nat -> nat -> list (list R); shift : nat -> list R; perm : nat -> nat -> list nat;
  rot_cf : nat -> nat -> list (list (list R)); shift_cf : nat -> list (list R); perm_cf : nat -> nat -> list (list nat) }.
Definition rot_dims : list nat := [2; 10; 20; 30; 50; 100]%nat.
Definition perm_dims : list nat := [10; 30; 50; 100]%nat.
(** A look-up in one of the dictionaries: KeyError for a number of coordinates that is not a key. *)
Definition lookup {A} (dims : list nat) (nx : nat) (a : A) : option A := if existsb (Nat.eqb nx) dims then Some a else None.
(** f1 .. f30 (k = 1 .. 30) called with x only: the value returned and the caller's vector afterwards. *)
Definition cec17 (T : tables) (k : nat) (x : list R) : option (fl * list R) :=
  let nx := length x in
  if (k <=? 10)%nat then
    obind (lookup rot_dims nx (rot T nx (k - 1))) (fun m =>
    obind (f_simple k m (firstn nx (shift T (k - 1))) x) (fun vx => Some (Fin (fst vx), snd vx)))
  else if (k <=? 20)%nat then
    obind (lookup rot_dims nx (rot T nx (k - 1))) (fun m =>
    obind (lookup perm_dims nx (perm T nx (k - 11))) (fun q =>
    obind (f_hybrid k m (firstn nx (shift T (k - 1))) q x) (fun v => Some (Fin v, x))))
  else if (k <=? 28)%nat then
    obind (lookup rot_dims nx (rot_cf T nx (k - 21))) (fun ms =>
    obind (f_comp k ms (shift_cf T (k - 21)) x) (fun v => Some (v, x)))
  else
    obind (lookup rot_dims nx (rot_cf T nx (k - 21))) (fun ms =>
    obind (lookup perm_dims nx (perm_cf T nx (k - 29))) (fun qs =>
    obind (f_comp_hybrid k ms (shift_cf T (k - 21)) qs x) (fun v => Some (v, x)))).

(* ---------- cec08.py ---------- *)
(** The values of F1 .. F6 without the bias, for z = solution - shift_data; cec08.py:49-55 (F1), 71-78 (F2), 92-102
    (F3), 115-122 (F4), 135-146 (F5), 159-166 (F6).  np.max of an empty vector raises, 0/0 too. *)
Definition rmax (l : list R) : R := fold_right Rmax 0 l.
Definition c08_core (k : nat) (z : list R) : option R :=
  let n := INR (length z) in
  match k with
  | 1%nat => Some (rsum (map sq z))
  | 2%nat => match z with [] => None | _ => Some (rmax (map Rabs z)) end
  | 3%nat => let y := map (fun a => a + 1) z in Some (rsum (map (fun p => 100 * sq (sq (fst p) - snd p) + sq (fst p - 1)) (pairs y)))
  | 4%nat => Some (rsum (map (fun a => sq a - 10 * cos (2 * PI * a) + 10) z))
  | 5%nat => Some (rsum (map (fun a => sq a / 4000) z) - rprod (map (fun ix => cos (snd ix / sqrt (INR (fst ix) + 1))) (enum 0 z)) + 1)
  | _ => match z with
         | [] => None
         | _ => Some (- 20 * exp (- (2 / 10) * sqrt (rsum (map sq z) / n)) - exp (rsum (map (fun a => cos (2 * PI * a)) z) / n) + 20 + exp 1)
         end
  end.
(** cec08.py:46, 68, 88, 112, 132, 156: f_bias. *)
Definition c08_bias (k : nat) : R := match k with 1%nat | 2%nat => -450 | 3%nat => 390 | 4%nat => -330 | 5%nat => -180 | _ => -140 end.
(** cec08.py:49-55 and the like: the method fit of F1 .. F6, with [data] the column of data08.csv. *)
Definition c08_fit (k : nat) (data : list R) (x : list R) : option R :=
  let n := length x in
  if (1000 <? n)%nat then Some 1
  else obind (vsub x (firstn n data)) (fun z => obind (c08_core k z) (fun v => Some (v + c08_bias k))).
(** cec08.py:57-62, 80-85, 104-109, 124-129, 148-153, 168-173: the method return_global. *)
Definition c08_global (k : nat) (data : list R) (nx : nat) : option (list R * R) :=
  let xmin := firstn nx data in obind (c08_fit k data xmin) (fun y => Some (xmin, y)).
