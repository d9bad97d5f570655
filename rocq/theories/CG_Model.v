(** Model of conjugate_gradient (neorl/rl/baselines/shared/cg.py).

    Floats are exact real numbers; a division by zero gives a vector that is not a number. *)
From Coq Require Import List Arith Bool Reals Lra.
Import ListNotations.
Open Scope R_scope.

Definition vec := list R.
Fixpoint map2 (f : R -> R -> R) (a b : vec) : vec := match a, b with x :: a', y :: b' => f x y :: map2 f a' b' | _, _ => [] end.
(** a.dot(b), a + b, a - b, c * a. *)
Fixpoint dot (a b : vec) : R := match a, b with x :: a', y :: b' => x * y + dot a' b' | _, _ => 0 end.
Definition add (a b : vec) : vec := map2 Rplus a b.
Definition sub (a b : vec) : vec := map2 Rminus a b.
Definition scale (c : R) (a : vec) : vec := map (Rmult c) a.
Definition zeros (n : nat) : vec := repeat 0 n.

(** What a call gives: a vector, a vector of nan, or an exception. *)
Inductive result := Vec (x : vec) | NaN | Raise.

Section CG.
  Variable f_ax : vec -> vec.
  (** The loop (29-44).  [p]: first_basis_vect, None for nan; [r]: residual; [rr]: residual_dot_residual.  The second result: how many iterations were made. *)
  Fixpoint loop (fuel : nat) (tol : R) (x r : vec) (p : option vec) (rr : R) : result * nat :=
    match fuel with
    | O => (Vec x, O)
    | S fuel' =>
        match p with
        | None => (NaN, 1%nat)
        | Some p =>
            let z := f_ax p in
            if Req_EM_T (dot p z) 0 then (NaN, 1%nat)
            else
              let v := rr / dot p z in
              let x' := add x (scale v p) in
              let r' := sub r (scale v z) in
              let rr' := dot r' r' in
              let p' := if Req_EM_T rr 0 then None else Some (add r' (scale (rr' / rr) p)) in
              if Rlt_dec rr' tol then (Vec x', 1%nat)
              else let '(a, k) := loop fuel' tol x' r' p' rr' in (a, S k)
        end
    end.
  (** conjugate_gradient (4-50), with the number of iterations made.  With verbose the last line reads the variable of the loop (49), which is
      not set if there was no iteration. *)
  Definition conjugate_gradient (b : vec) (cg_iters : nat) (verbose : bool) (tol : R) : result * nat :=
    if (verbose && (cg_iters =? 0)%nat)%bool then (Raise, O) else loop cg_iters tol (zeros (length b)) b (Some b) (dot b b).
End CG.
