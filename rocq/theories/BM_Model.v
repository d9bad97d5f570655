(** Model of the classic benchmark functions and of the table of their minima
    (neorl/benchmarks/classic.py).

    Floats are exact real numbers (type R), so sums and products do not depend on the order in which they
    are taken.  An exception (index out of range, division by zero) is [None].  A call of random.random()
    is a number given from outside: [rnd i] is call number i of one evaluation. *)
From Coq Require Import List Arith Reals.
Import ListNotations.
Open Scope R_scope.

(** sum(...) and reduce(mul, ..., 1). *)
Definition rsum (l : list R) : R := fold_right Rplus 0 l.
Definition rprod (l : list R) : R := fold_right Rmult 1 l.
(** x**2. *)
Definition sq (x : R) : R := x * x.
(** b**a for b >= 0. *)
Definition rpow (b a : R) : R :=
  if Req_EM_T b 0 then (if Req_EM_T a 0 then 1 else 0) else Rpower b a.
(** zip(individual[:-1], individual[1:]). *)
Definition pairs (l : list R) : list (R * R) := combine (removelast l) (tl l).
(** enumerate(individual, start=k). *)
Definition enum (k : nat) (l : list R) : list (nat * R) := combine (seq k (length l)) l.

(** classic.py:27-30. *)
Definition sphere (l : list R) : R := rsum (map sq l).
(** classic.py:32-35. *)
Definition cigar (l : list R) : option R :=
  match l with [] => None | x :: _ => Some (sq x + 1000000 * rsum (map (fun g => g * g) l)) end.
(** classic.py:37-41. *)
Definition rosenbrock (l : list R) : R := rsum (map (fun p => 100 * sq (fst p * fst p - snd p) + sq (1 - fst p)) (pairs l)).
(** classic.py:43-48. *)
Definition ackley (l : list R) : option R :=
  let n := INR (length l) in
  match l with
  | [] => None
  | _ => Some (20 - 20 * exp (- (2 / 10) * sqrt (1 / n * rsum (map sq l))) + exp 1 - exp (1 / n * rsum (map (fun x => cos (2 * PI * x)) l)))
  end.
(** classic.py:50-54. *)
Definition bohachevsky (l : list R) : R :=
  rsum (map (fun p => sq (fst p) + 2 * sq (snd p) - 3 / 10 * cos (3 * PI * fst p) - 4 / 10 * cos (4 * PI * snd p) + 7 / 10) (pairs l)).
(** classic.py:56-60. *)
Definition griewank (l : list R) : R :=
  1 / 4000 * rsum (map sq l) - rprod (map (fun ix => cos (snd ix / sqrt (INR (fst ix) + 1))) (enum 0 l)) + 1.
(** classic.py:62-66. *)
Definition rastrigin (l : list R) : R := 10 * INR (length l) + rsum (map (fun g => g * g - 10 * cos (2 * PI * g)) l).
(** classic.py:68-73: one coordinate divides 0 by 0. *)
Definition rastrigin_scaled (l : list R) : option R :=
  let n := length l in
  if (n =? 1)%nat then None
  else let s i := Rpower 10 (INR i / (INR n - 1)) in
       Some (10 * INR n + rsum (map (fun ix => sq (s (fst ix) * snd ix) - 10 * cos (2 * PI * s (fst ix) * snd ix)) (enum 0 l))).
(** classic.py:75-80. *)
Definition skewed (x : R) : R := if Rlt_dec 0 x then 10 * x else x.
Definition rastrigin_skew (l : list R) : R := 10 * INR (length l) + rsum (map (fun x => sq (skewed x) - 10 * cos (2 * PI * skewed x)) l).
(** classic.py:83-87. *)
Definition schaffer (l : list R) : R :=
  rsum (map (fun p => rpow (sq (fst p) + sq (snd p)) (25 / 100) * (sq (sin (50 * rpow (sq (fst p) + sq (snd p)) (1 / 10))) + 1)) (pairs l)).
(** classic.py:89-93. *)
Definition schwefel (l : list R) : R := 4189828872724339 / 10000000000000 * INR (length l) - rsum (map (fun x => x * sin (sqrt (Rabs x))) l).
(** classic.py:101-106: x holds the squares. *)
Definition brown (l : list R) : R :=
  rsum (map (fun p => rpow (fst p) (snd p + 1) + rpow (snd p) (fst p + 1)) (pairs (map sq l))).
(** classic.py:108-109. *)
Definition expo (l : list R) : R := - exp (- (5 / 10) * rsum (map sq l)).
(** classic.py:111-112: one random number per coordinate. *)
Definition yang (rnd : nat -> R) (l : list R) : R := rsum (map (fun ix => rnd (fst ix) * Rabs (snd ix) ^ (fst ix)) (enum 1 l)).
(** classic.py:114-115. *)
Definition yang2 (l : list R) : R := rsum (map Rabs l) * exp (- rsum (map (fun x => sin (sq x)) l)).
(** classic.py:117-121. *)
Definition yang3 (l : list R) : R :=
  exp (- rsum (map (fun x => (x / 15) ^ 10) l)) - 2 * exp (- rsum (map sq l)) * rprod (map (fun x => sq (cos x)) l).
(** classic.py:123-125. *)
Definition yang4 (l : list R) : R :=
  (rsum (map (fun x => sq (sin x)) l) - exp (- rsum (map sq l))) * exp (- rsum (map (fun x => sq (sin (sqrt (Rabs x)))) l)).
(** classic.py:127-129. *)
Definition zakharov (l : list R) : R :=
  let s := rsum (map (fun ix => 5 / 10 * INR (fst ix) * snd ix) (enum 1 l)) in rsum (map sq l) + s ^ 2 + s ^ 4.
(** classic.py:131-132. *)
Definition salomon (l : list R) : R := 1 - cos (2 * PI * sqrt (rsum (map sq l))) + 1 / 10 * sqrt (rsum (map sq l)).
(** classic.py:134-135. *)
Definition st (l : list R) : R := 5 / 10 * rsum (map (fun x => x ^ 4 - 16 * x ^ 2 + 5 * x) l).
(** classic.py:137-141. *)
Definition shubert (l : list R) : R :=
  rprod (map (fun y => rsum (map (fun x => x * cos ((x + 1) * y + x)) [1; 2; 3; 4; 5])) l).
(** classic.py:148-149. *)
Definition powell (l : list R) : R := rsum (map (fun ix => Rabs (snd ix) ^ (fst ix + 1)) (enum 1 l)).
(** classic.py:154-155. *)
Definition qing (l : list R) : R := rsum (map (fun ix => sq (sq (snd ix) - INR (fst ix))) (enum 1 l)).
(** classic.py:157-158. *)
Definition quartic (rnd : nat -> R) (l : list R) : R := rsum (map (fun ix => INR (fst ix) * (snd ix) ^ 4) (enum 1 l)) + rnd 0%nat.
(** classic.py:160-164. *)
Definition happycat (l : list R) : option R :=
  let l2 := rsum (map sq l) in
  let n := INR (length l) in
  match l with
  | [] => None
  | _ => Some (rpow (sq (l2 - n)) (1 / 8) + 1 / n * (5 / 10 * l2 + rsum l) + 5 / 10)
  end.
(** classic.py:166-167. *)
Definition schwefel2 (l : list R) : R := rsum (map Rabs l) + rprod (map Rabs l).
(** classic.py:169-174: the loop runs over i = 1 .. len-1. *)
Definition dixonprice (l : list R) : option R :=
  match l with
  | [] => None
  | x0 :: _ => Some (rsum (map (fun ip => (INR (fst ip) + 1) * sq (2 * sq (snd (snd ip)) - fst (snd ip))) (combine (seq 1 (length l)) (pairs l))) + sq (x0 - 1))
  end.
(** classic.py:176-189. *)
Definition levy (l : list R) : option R :=
  let w := map (fun x => 1 + (x - 1) / 4) l in
  match w with
  | [] => None
  | w0 :: _ =>
      let wl := last w 0 in
      Some (sq (sin (PI * w0)) + rsum (map (fun wi => sq (wi - 1) * (1 + 10 * sq (sin (PI * wi + 1)))) (removelast w))
            + sq (wl - 1) * (1 + sq (sin (2 * PI * wl))))
  end.

(** classic.py:191-223 all_functions (in this order). *)
Inductive bench : Type :=
| Sphere | Cigar | Rosenbrock | Bohachevsky | Griewank | Rastrigin | Ackley | RastriginScaled | RastriginSkew | Schaffer | Schwefel | Schwefel2
| Brown | Expo | Yang | Yang2 | Yang3 | Yang4 | Zakharov | Salomon | St | Shubert | Powell | Qing | Quartic | Happycat | Dixonprice | Levy.
Definition bench_fun (rnd : nat -> R) (b : bench) (l : list R) : option R :=
  match b with
  | Sphere => Some (sphere l) | Cigar => cigar l | Rosenbrock => Some (rosenbrock l) | Bohachevsky => Some (bohachevsky l)
  | Griewank => Some (griewank l) | Rastrigin => Some (rastrigin l) | Ackley => ackley l | RastriginScaled => rastrigin_scaled l
  | RastriginSkew => Some (rastrigin_skew l) | Schaffer => Some (schaffer l) | Schwefel => Some (schwefel l) | Schwefel2 => Some (schwefel2 l)
  | Brown => Some (brown l) | Expo => Some (expo l) | Yang => Some (yang rnd l) | Yang2 => Some (yang2 l) | Yang3 => Some (yang3 l)
  | Yang4 => Some (yang4 l) | Zakharov => Some (zakharov l) | Salomon => Some (salomon l) | St => Some (st l) | Shubert => Some (shubert l)
  | Powell => Some (powell l) | Qing => Some (qing l) | Quartic => Some (quartic rnd l) | Happycat => happycat l
  | Dixonprice => dixonprice l | Levy => levy l
  end.

(** classic.py:259-291 all_bounds: the same interval for every coordinate. *)
Definition bench_bounds (b : bench) : R * R :=
  match b with
  | Sphere | Rastrigin | RastriginScaled | RastriginSkew => (- (512 / 100), 512 / 100)
  | Cigar | Bohachevsky | Schaffer | Schwefel2 | Salomon => (-100, 100)
  | Rosenbrock | Zakharov => (-5, 10)
  | Griewank => (-600, 600)
  | Ackley => (- (32768 / 1000), 32768 / 1000)
  | Schwefel | Qing => (-500, 500)
  | Brown => (-1, 4)
  | Expo | Powell => (-1, 1)
  | Yang | St => (-5, 5)
  | Yang2 => (- (2 * PI), 2 * PI)
  | Yang3 => (-20, 20)
  | Yang4 | Shubert | Dixonprice | Levy => (-10, 10)
  | Quartic => (- (128 / 100), 128 / 100)
  | Happycat => (-2, 2)
  end.

(** classic.py:327-359 all_minima_x for [n] coordinates: the points listed (several for Qing, Quartic).
    Coordinate i (from 1) of the point listed for Dixonprice is 2^(-(2^i-2)/2^i). *)
Definition bench_minima (b : bench) (n : nat) : list (list R) :=
  match b with
  | Rosenbrock | Levy => [repeat 1 n]
  | Happycat => [repeat (-1) n]
  | Schwefel => [repeat (42096874636 / 100000000) n]
  | St => [repeat (- (2903534 / 1000000)) n]
  | Shubert => [[- (70825 / 10000); 48580 / 10000]]
  | Qing => [map (fun i => sqrt (INR i)) (seq 1 n); map (fun i => - sqrt (INR i)) (seq 1 n)]
  | Quartic => [repeat (-1) n; repeat 2 n]
  | Dixonprice => [map (fun i => Rpower 2 (- ((2 ^ i - 2) / 2 ^ i))) (seq 1 n)]
  | _ => [repeat 0 n]
  end.
