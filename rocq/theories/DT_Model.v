(** Model of the multi-objective benchmark DTLZ2 (neorl/benchmarks/dtlz.py).

    Floats are exact real numbers; an exception is [None].  The general class Problem is modelled as far as
    evaluate(x) of one vector and pareto_front(ref_dirs) go: a matrix is evaluated row by row, gradients
    (autograd) are left out. *)
From Coq Require Import List Bool Arith ZArith Reals.
From Verif Require Import BM_Model CE_Model.
Import ListNotations.
Open Scope R_scope.

(** dtlz.py:357-368 DTLZ.__init__: n_var and k of the object; None and 0 count as not given. *)
Definition dt_new (n_var : option nat) (n_obj : nat) (k : option nat) : option (nat * Z) :=
  match n_var with
  | Some (S n) => Some (S n, Z.of_nat (S n) - Z.of_nat n_obj + 1)%Z
  | _ => match k with Some (S k') => Some (S k' + n_obj - 1, Z.of_nat (S k'))%nat | _ => None end
  end.
(** dtlz.py:390-392 DTLZ2.__init__: n_var=10, n_obj=3 if not given ([None] is "not given", [Some None] is
    n_var=None). *)
Definition dt2_new (n_var : option (option nat)) (n_obj : option nat) (k : option nat) : option (nat * Z) :=
  dt_new (match n_var with Some v => v | None => Some 10%nat end) (match n_obj with Some m => m | None => 3%nat end) k.

(** X_[:, :e] and X_[:, e] for an integer e, with Python's negative indices. *)
Definition slice_to (X : list R) (e : Z) : list R :=
  if (e <? 0)%Z then firstn (Z.to_nat (Z.of_nat (length X) + e)) X else firstn (Z.to_nat e) X.
Definition py_index (X : list R) (e : Z) : option R :=
  if (e <? 0)%Z then (if (Z.of_nat (length X) + e <? 0)%Z then None else nth_error X (Z.to_nat (Z.of_nat (length X) + e))) else nth_error X (Z.to_nat e).
(** dtlz.py:373-374 g2. *)
Definition g2 (XM : list R) : R := rsum (map (fun a => sq (a - 1 / 2)) XM).
(** dtlz.py:376-388 obj_func with alpha = 1, objective i. *)
Definition hcos (a : R) : R := cos (a * PI / 2).
Definition hsin (a : R) : R := sin (a * PI / 2).
Definition dt_obj (X : list R) (g : R) (i : nat) : option R :=
  let e := (Z.of_nat (length X) - Z.of_nat i)%Z in
  let f := (1 + g) * rprod (map hcos (slice_to X e)) in
  match i with 0%nat => Some f | _ => obind (py_index X e) (fun a => Some (f * hsin a)) end.
Fixpoint all_some {A} (l : list (option A)) : option (list A) :=
  match l with [] => Some [] | o :: r => obind o (fun a => obind (all_some r) (fun t => Some (a :: t))) end.
(** dtlz.py:397-400 _evaluate. *)
Definition dt_eval (n_obj : nat) (x : list R) : option (list R) :=
  let X := firstn (n_obj - 1) x in let XM := skipn (n_obj - 1) x in
  all_some (map (dt_obj X (g2 XM)) (seq 0 n_obj)).
(** dtlz.py:157-301 evaluate of one vector: the number of variables is checked. *)
Definition dtlz2 (n_var n_obj : nat) (x : list R) : option (list R) :=
  if (length x =? n_var)%nat then dt_eval n_obj x else None.
(** dtlz.py:402-403 generic_sphere, one row; [None] is a row of not-a-numbers (0/0). *)
Definition norm2 (v : list R) : R := sqrt (rsum (map sq v)).
Definition generic_sphere (v : list R) : option (list R) :=
  if Req_EM_T (norm2 v) 0 then None else Some (map (fun a => a / norm2 v) v).
(** dtlz.py:132-143, 394-395 pareto_front(ref_dirs): the front returned and the cached front afterwards. *)
Definition front : Type := list (option (list R)).
Definition pareto_front (cache : option front) (ref_dirs : list (list R)) : front * option front :=
  match cache with Some f => (f, cache) | None => let f := map generic_sphere ref_dirs in (f, Some f) end.
