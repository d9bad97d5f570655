(** Pieces shared by the optimizer models: modes, sorting, arg-min/max, running best,
    random individuals. *)
From Coq Require Import List Arith ZArith QArith Qround Bool.
From Verif Require Import Base Space_Model.
Import ListNotations.
Open Scope nat_scope.

(** The [mode] argument of every optimizer. *)
Inductive mode : Type := Mmin | Mmax.

(** The sign wrapper of the optimizers that maximise internally (e.g.
    neorl/evolu/es.py:70-78): the user's function for 'max', its negative for 'min'. *)
Definition as_max (m : mode) (q : Q) : Q := match m with Mmax => q | Mmin => (- q)%Q end.
(** The wrapper of those that minimise internally (e.g. neorl/evolu/gwo.py:52-60). *)
Definition as_min (m : mode) (q : Q) : Q := match m with Mmin => q | Mmax => (- q)%Q end.

Section Sort.
Context {A : Type} (key : A -> Q).
(** [l.sort(key=..., reverse=True)]: descending, stable. *)
Fixpoint insert_desc (a : A) (l : list A) : list A :=
  match l with
  | [] => [a]
  | b :: r => if Qle_bool (key b) (key a) then a :: b :: r else b :: insert_desc a r
  end.
Fixpoint sort_desc (l : list A) : list A :=
  match l with [] => [] | a :: r => insert_desc a (sort_desc r) end.
(** [l.sort(key=...)], [np.argsort(kind='stable')]: ascending, stable. *)
Fixpoint insert_asc (a : A) (l : list A) : list A :=
  match l with
  | [] => [a]
  | b :: r => if Qle_bool (key a) (key b) then a :: b :: r else b :: insert_asc a r
  end.
Fixpoint sort_asc (l : list A) : list A :=
  match l with [] => [] | a :: r => insert_asc a (sort_asc r) end.
End Sort.

(** [np.argmin]/[np.min]: position of the first minimum and the minimum (None: ValueError
    on an empty array). *)
Fixpoint argmin_aux (i bi : nat) (bv : Q) (l : list Q) : nat * Q :=
  match l with
  | [] => (bi, bv)
  | x :: r => if Qltb x bv then argmin_aux (S i) i x r else argmin_aux (S i) bi bv r
  end.
Definition argmin (l : list Q) : option (nat * Q) :=
  match l with [] => None | x :: r => Some (argmin_aux 1 0 x r) end.
Fixpoint argmax_aux (i bi : nat) (bv : Q) (l : list Q) : nat * Q :=
  match l with
  | [] => (bi, bv)
  | x :: r => if Qltb bv x then argmax_aux (S i) i x r else argmax_aux (S i) bi bv r
  end.
Definition argmax (l : list Q) : option (nat * Q) :=
  match l with [] => None | x :: r => Some (argmax_aux 1 0 x r) end.

(** [np.minimum.accumulate], [np.maximum.accumulate]. *)
Fixpoint acc_from (f : Q -> Q -> Q) (a : Q) (l : list Q) : list Q :=
  match l with [] => [] | x :: r => let b := f a x in b :: acc_from f b r end.
Definition accumulate (f : Q -> Q -> Q) (l : list Q) : list Q :=
  match l with [] => [] | x :: r => x :: acc_from f x r end.
Definition qmin2 (a b : Q) : Q := if Qle_bool a b then a else b.
Definition qmax2 (a b : Q) : Q := if Qle_bool b a then a else b.

(** The individual generators init_sample / GenES / GenParticle / gen_indv / GenIndv of all
    optimizers (e.g. neorl/evolu/gwo.py:88-100, es.py:129-139, pso.py:103-122, bat.py:111-123):
    [random.randint(lo,hi)] is [lo + k mod (hi-lo+1)] for an arbitrary draw [k],
    [random.uniform(lo,hi)] is [lo + (hi-lo)*u] for an arbitrary draw [u] (in [0,1)). *)
Definition gen_coord (d : dimn) (u : Q) (k : nat) : Q :=
  if d_int d
  then inject_Z (trunc (d_lo d) + Z.of_nat k mod (trunc (d_hi d) - trunc (d_lo d) + 1))
  else (d_lo d + (d_hi d - d_lo d) * u)%Q.
Fixpoint gen_indv_from (i : nat) (ds : list dimn) (u : nat -> Q) (k : nat -> nat) : list Q :=
  match ds with
  | [] => []
  | d :: r => gen_coord d (u i) (k i) :: gen_indv_from (S i) r u k
  end.
Definition gen_indv (ds : list dimn) (u : nat -> Q) (k : nat -> nat) : list Q := gen_indv_from 0 ds u k.

(** Pairwise vector arithmetic of NumPy rows of equal length. *)
Fixpoint map2 {A B C} (f : A -> B -> C) (l : list A) (r : list B) : list C :=
  match l, r with a :: l', b :: r' => f a b :: map2 f l' r' | _, _ => [] end.

(** Sequencing of calls that may raise. *)
Definition bind {A B} (x : option A) (f : A -> option B) : option B :=
  match x with Some a => f a | None => None end.
Notation "'let*' p ':=' x 'in' k" := (bind x (fun p => k))
  (at level 200, p binder, x at level 100, k at level 200, right associativity).

(** [l.pop(i)] / deletion of one position. *)
Fixpoint remove_at {A} (l : list A) (i : nat) : list A :=
  match l, i with
  | [], _ => []
  | _ :: r, O => r
  | a :: r, S i' => a :: remove_at r i'
  end.

(** [random.sample(l, k)]: [k] successive draws without replacement; draw number [d] takes
    position [d mod (what is left)].  None: ValueError, more draws than elements. *)
Fixpoint sample {A} (l : list A) (draws : list nat) : option (list A) :=
  match draws with
  | [] => Some []
  | d :: ds =>
      match nth_error l (d mod length l) with
      | None => None
      | Some x => match sample (remove_at l (d mod length l)) ds with
                  | Some r => Some (x :: r)
                  | None => None
                  end
      end
  end.

(** Iterating a step that may raise over a list of draws, collecting what each step yields. *)
Fixpoint iter_steps {S D O} (step : S -> D -> option (S * O)) (s : S) (ds : list D)
  : option (S * list O) :=
  match ds with
  | [] => Some (s, [])
  | d :: r => match step s d with
              | None => None
              | Some (s', o) => match iter_steps step s' r with
                                | Some (s'', os) => Some (s'', o :: os)
                                | None => None
                                end
              end
  end.

(** [for i, a in enumerate(l)] building a new list with a body that may raise. *)
Fixpoint traverse {A B} (f : nat -> A -> option B) (i : nat) (l : list A) : option (list B) :=
  match l with
  | [] => Some []
  | a :: r => let* b := f i a in let* bs := traverse f (S i) r in Some (b :: bs)
  end.

(** [for g in range(g0, g0+todo)] over a state with a body that may raise. *)
Fixpoint gens {S} (step : nat -> S -> option S) (g todo : nat) (s : S) : option S :=
  match todo with
  | O => Some s
  | S t => let* s' := step g s in gens step (Datatypes.S g) t s'
  end.
