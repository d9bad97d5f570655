(** Model of the parameter-space helpers of neorl:
    neorl/evolu/discrete.py (grid encoding, continuous-to-discrete transformation),
    neorl/utils/tools.py (validation of x0) and the bound-repair routines shared by
    all optimizers.

    Simplifications: a Python scalar is a number (exact rational) or a string; a
    dictionary is an association list in insertion order (its keys are distinct, which
    the theorems state as a hypothesis); an exception is [None]. *)
From Coq Require Import String List Arith ZArith QArith Qround Bool.
From Verif Require Import Base.
Import ListNotations.
Open Scope nat_scope.

(** A coordinate of an individual: a number or a categorical string. *)
Inductive val : Type := VNum (q : Q) | VStr (s : string).

(** Python [==] between scalars. *)
Definition veqb (a b : val) : bool :=
  match a, b with
  | VNum x, VNum y => Qeq_bool x y
  | VStr s, VStr t => String.eqb s t
  | _, _ => false
  end.

(** One entry of the user's [bounds] dictionary:
    ['int', lo, hi], ['float', lo, hi] or ['grid', choices]. *)
Inductive param : Type :=
| PInt (lo hi : Q)
| PFloat (lo hi : Q)
| PGrid (choices : list val).

Definition space : Type := list (string * param).

(** The inner dictionaries of [bounds_map]: choice index -> choice. *)
Definition gmap : Type := list (string * list (nat * val)).

(** [d[key]] (None: KeyError). *)
Fixpoint dget {A} (d : list (string * A)) (k : string) : option A :=
  match d with
  | [] => None
  | (k', a) :: r => if String.eqb k' k then Some a else dget r k
  end.

(** [d[index]] on an inner dictionary with integer keys; a float key equal to an
    integer key finds it (None: KeyError). *)
Fixpoint iget (d : list (nat * val)) (ix : val) : option val :=
  match d with
  | [] => None
  | (n, v) :: r => if veqb (VNum (inject_Z (Z.of_nat n))) ix then Some v else iget r ix
  end.

(** neorl/evolu/discrete.py:104-119 encode_grid_to_discrete. *)
Definition encode_param (p : param) : param :=
  match p with
  | PGrid cs => PInt 0 (inject_Z (Z.of_nat (length cs)) - 1)
  | _ => p
  end.

Definition encode_grid_to_discrete (b : space) : space * gmap :=
  (map (fun kp => (fst kp, encode_param (snd kp))) b,
   flat_map (fun kp => match snd kp with
                       | PGrid cs => [(fst kp, combine (seq 0 (length cs)) cs)]
                       | _ => []
                       end) b).

(** neorl/evolu/discrete.py:123-133 decode_discrete_to_grid; [i] is the position
    reached by [enumerate]. *)
Fixpoint decode_from (i : nat) (ind : list val) (b : space) (m : gmap) : option (list val) :=
  match b with
  | [] => Some []
  | (k, p) :: r =>
      match nth_error ind i with
      | None => None
      | Some v =>
          match (match p with
                 | PGrid _ => match dget m k with Some d => iget d v | None => None end
                 | _ => Some v
                 end), decode_from (S i) ind r m with
          | Some w, Some ws => Some (w :: ws)
          | _, _ => None
          end
      end
  end.
Definition decode_discrete_to_grid (ind : list val) (b : space) (m : gmap) : option (list val) :=
  decode_from 0 ind b m.

(** neorl/evolu/discrete.py:138-151 encode_grid_indv_to_discrete: the list of all
    indices whose choice equals the value must have exactly one element (assert, 146). *)
Fixpoint encode_from (i : nat) (ind : list val) (b : space) (m : gmap) : option (list val) :=
  match b with
  | [] => Some []
  | (k, p) :: r =>
      match nth_error ind i with
      | None => None
      | Some v =>
          match (match p with
                 | PGrid _ =>
                     match dget m k with
                     | Some d =>
                         match map fst (filter (fun nv => veqb (snd nv) v) d) with
                         | [n] => Some (VNum (inject_Z (Z.of_nat n)))
                         | _ => None
                         end
                     | None => None
                     end
                 | _ => Some v
                 end), encode_from (S i) ind r m with
          | Some w, Some ws => Some (w :: ws)
          | _, _ => None
          end
      end
  end.
Definition encode_grid_indv_to_discrete (ind : list val) (b : space) (m : gmap) : option (list val) :=
  encode_from 0 ind b m.

(** neorl/utils/tools.py:27-32 is_integer_num (Python scalars; NumPy scalars are not
    modelled). *)
Definition is_integer_num (v : val) : bool :=
  match v with
  | VNum q => Qeq_bool q (inject_Z (Qfloor q))
  | VStr _ => false
  end.

(** [lo <= v <= hi]; comparing a string with a number raises, i.e. the check fails. *)
Definition in_range_b (lo hi : Q) (v : val) : bool :=
  match v with
  | VNum q => Qle_bool lo q && Qle_bool q hi
  | VStr _ => false
  end.

(** neorl/utils/tools.py:43-64 check_mixed_individual ([false]: an exception). *)
Fixpoint check_from (i : nat) (x : list val) (b : space) : bool :=
  match b with
  | [] => true
  | (_, p) :: r =>
      match nth_error x i with
      | None => false
      | Some v =>
          (match p with
           | PGrid cs => existsb (fun c => veqb v c) cs
           | PInt lo hi => is_integer_num v && in_range_b lo hi v
           | PFloat lo hi => in_range_b lo hi v
           end) && check_from (S i) x r
      end
  end.
Definition check_mixed_individual (x : list val) (b : space) : bool := check_from 0 x b.

(** Python [int(x)] on a number: truncation toward zero. *)
Definition trunc (q : Q) : Z := if Qle_bool 0 q then Qfloor q else Qceiling q.

(** [list(range(a, b))]. *)
Definition zrange (a b : Z) : list Z := map (fun k => (a + Z.of_nat k)%Z) (seq 0 (Z.to_nat (b - a))).

(** [l.remove(z)] (None: ValueError). *)
Fixpoint zremove (z : Z) (l : list Z) : option (list Z) :=
  match l with
  | [] => None
  | a :: r => if Z.eqb a z then Some r
              else match zremove z r with Some r' => Some (a :: r') | None => None end
  end.

(** [random.choice(l)]: the draw is an arbitrary number reduced modulo the length
    (None: IndexError on an empty list). *)
Definition choice {A} (l : list A) (pick : nat) : option A := nth_error l (pick mod length l).

Inductive imethod : Type := NearestInt | Sigmoid | MinMax | OtherMethod.

Definition qabs (q : Q) : Q := if Qle_bool 0 q then q else - q.

(** neorl/evolu/discrete.py:29-95 mutate_discrete.  [expf] is [math.exp], [rand] the
    draw of [random.random()], [pick] the draw of [random.choice].  A method name other
    than the three implemented ones leaves [to_ret] unbound (UnboundLocalError). *)
Definition mutate_discrete (expf : Q -> Q) (x xmin xmax lb ub alpha : Q) (method : imethod)
    (rand : Q) (pick : nat) : option Z :=
  let lb := trunc lb in
  let ub := trunc ub in
  let perturb := match zremove (trunc x) (zrange lb (ub + 1)) with
                 | Some choices => choice choices pick
                 | None => None
                 end in
  let ret :=
    match method with
    | NearestInt => Some (trunc x)
    | Sigmoid =>
        let flag := Qeq_bool xmax xmin in
        let sig := if flag then 0%Q
                   else (1 / (1 + expf (((2 - 0) * (x - xmin)) / (xmax - xmin) + 0)))%Q in
        if (Qltb rand sig && Qltb rand alpha) || flag then perturb else Some (trunc x)
    | MinMax =>
        let flag := Qeq_bool (qabs xmin + xmax) 0 in
        let norm := if flag then 0%Q else ((x + xmin) / (qabs xmin + xmax))%Q in
        if (Qle_bool (1 # 2) norm && Qltb rand alpha) || flag then perturb else Some (trunc x)
    | OtherMethod => None
    end in
  match ret with
  | None => None
  | Some z => let z := if (z <? lb)%Z then lb else z in
              Some (if (ub <? z)%Z then ub else z)
  end.

(** [min(vec)], [max(vec)] of a non-empty Python list. *)
Definition qlist_min (l : list Q) : Q :=
  match l with [] => 0%Q | a :: r => fold_left (fun m x => if Qltb x m then x else m) r a end.
Definition qlist_max (l : list Q) : Q :=
  match l with [] => 0%Q | a :: r => fold_left (fun m x => if Qltb m x then x else m) r a end.

(** A numeric space: for every dimension, is it an 'int' variable, and its bounds. *)
Record dimn : Type := Dim { d_int : bool; d_lo : Q; d_hi : Q }.

(** ensure_discrete of neorl/evolu/bat.py:188-211 and, with the same body, of cs.py:164-187,
    hclpso.py:170-193, hho.py:469-492, mfo.py:159-182, ssa.py:168-191, ts.py:170-193,
    de.py:180-202, gwo.py:134-157, jaya.py:166-188, woa.py:170-192, hybrid/edev.py:179-202,
    hybrid/epso.py:182-205.  The vector is updated in place, so [min(vec)], [max(vec)] see
    the coordinates already transformed.  [rand i], [pick i] are the draws of dimension [i]. *)
Fixpoint ensure_discrete_from (expf : Q -> Q) (alpha : Q) (method : imethod)
    (rand : nat -> Q) (pick : nat -> nat) (i : nat) (ds : list dimn) (vec : list Q)
    : option (list Q) :=
  match ds with
  | [] => Some vec
  | d :: r =>
      if d_int d then
        match nth_error vec i with
        | None => None
        | Some x =>
            match mutate_discrete expf x (qlist_min vec) (qlist_max vec) (d_lo d) (d_hi d)
                    alpha method (rand i) (pick i) with
            | Some z => ensure_discrete_from expf alpha method rand pick (S i) r
                          (set_nth vec i (inject_Z z))
            | None => None
            end
        end
      else ensure_discrete_from expf alpha method rand pick (S i) r vec
  end.
Definition ensure_discrete expf alpha method rand pick ds vec :=
  ensure_discrete_from expf alpha method rand pick 0 ds vec.

(** A floating-point number that may be NaN (only used for the bound repair). *)
Inductive fnum : Type := Num (q : Q) | NaN.

Definition fltb (a b : fnum) : bool :=
  match a, b with Num x, Num y => Qltb x y | _, _ => false end.
Definition fleb (a b : fnum) : bool :=
  match a, b with Num x, Num y => Qle_bool x y | _, _ => false end.

(** ensure_bounds: neorl/evolu/es.py:202-217 and, with the same body, cs.py:138-151,
    de.py:101-119, gwo.py:102-117, hclpso.py:135-153, jaya.py:120-135, mfo.py:130-145,
    pso.py:126-144, sa.py:167-182, ssa.py:133-151, ts.py:144-157, woa.py:138-153, aco.py:98-112,
    bat.py:153-171, hho.py:227-245, xnes.py:136-154, hybrid/edev.py:142-160,
    hybrid/edevcore/helpers.py:25-43, hybrid/epso.py:145-163, hybrid/pesa2.py:190-208,
    hybrid/pesacore/{es,de,gwo,woa,xnes}.py, rl/make_env.py:290-305.
    Three independent tests append to the result (None: IndexError, vector too short). *)
Fixpoint ensure_bounds_from (i : nat) (vec : list fnum) (b : list (Q * Q)) : option (list fnum) :=
  match b with
  | [] => Some []
  | (lo, hi) :: r =>
      match nth_error vec i with
      | None => None
      | Some x =>
          match ensure_bounds_from (S i) vec r with
          | None => None
          | Some rest =>
              Some ((if fltb x (Num lo) then [Num lo] else []) ++
                    (if fltb (Num hi) x then [Num hi] else []) ++
                    (if fleb (Num lo) x && fleb x (Num hi) then [x] else []) ++ rest)
          end
      end
  end.
Definition ensure_bounds (vec : list fnum) (b : list (Q * Q)) : option (list fnum) :=
  ensure_bounds_from 0 vec b.

(** The same routine on vectors of numbers (no NaN), as used by the optimizer models. *)
Fixpoint clip_vec (b : list (Q * Q)) (vec : list Q) : list Q :=
  match b, vec with
  | (lo, hi) :: r, x :: v =>
      (if Qltb x lo then [lo] else []) ++ (if Qltb hi x then [hi] else []) ++
      (if Qle_bool lo x && Qle_bool x hi then [x] else []) ++ clip_vec r v
  | _, _ => []
  end.
