(** The surrogate of the power of the quadrants of a microreactor (neorl/benchmarks/qpower_model.py:19-37) and the objective made of it
    (examples/ex11_microreactor.py:20-26).  Floats are exact real numbers. *)
From Coq Require Import List Reals.
Import ListNotations.
Open Scope R_scope.

(** A float64 of numpy, as far as a division makes one. *)
Inductive number := Num (r : R) | Inf (positive : bool) | NaN.
(** Division of numpy: by zero it warns and gives an infinity or nan. *)
Definition divide (a b : R) : number :=
  if Req_EM_T b 0 then (if Req_EM_T a 0 then NaN else if Rlt_dec 0 a then Inf true else Inf false) else Num (a / b).
(** unorm.sum() *)
Definition total (l : list R) : R := fold_right Rplus 0 l.
(** The prediction of the network for a batch of one, flattened. *)
Section Model.
Variable predict : list R -> list R.
(** eval (29-33): the angles are copied, so they are the same afterwards. *)
Definition eval (pert : list R) : list number * list R :=
  let pert2 := pert in let unorm := predict pert2 in (map (fun a => divide a (total unorm)) unorm, pert).
End Model.
(** np.abs(powers - targets).sum() with targets 0.25 (ex11_microreactor.py:24-26): nan or infinite as soon as one power is. *)
Fixpoint deviation (powers : list number) : option R :=
  match powers with
  | [] => Some 0
  | Num r :: l => match deviation l with Some d => Some (Rabs (r - 1 / 4) + d) | None => None end
  | _ :: _ => None
  end.
