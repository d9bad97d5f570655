(** Statistics and the optimizer over several processes.
    /repo/neorl/rl/baselines/shared/mpi_moments.py, mpi_running_mean_std.py and mpi_adam.py. *)
From Coq Require Import Reals List ZArith Arith Bool.
Import ListNotations.
Open Scope R_scope.

(** Arrays of numpy, reduced along their first axis: rows, with the other axes flattened into columns. Other axes are the same array
    with its axes exchanged. Numbers are exact: rounding is not modelled. *)
Record array : Type := Array { width : nat; rows : list (list R) }.
Definition vadd (a b : list R) : list R := map (fun p => fst p + snd p) (combine a b).
Definition zeros (w : nat) : list R := repeat 0 w.
(** arr.sum(axis=0).ravel(): mpi_moments.py:21,24, mpi_running_mean_std.py:55. *)
Definition total (a : array) : list R := fold_left vadd (rows a) (zeros (width a)).

(** The element types of arrays: floats, and unsigned integers, which keep the remainder. *)
Inductive dtype : Type := Float | Unsigned (bits : nat).
Definition store (d : dtype) (x : R) : R :=
  match d with
  | Float => x
  | Unsigned b => x - 2 ^ b * IZR (Int_part (x / 2 ^ b))
  end.

(** comm.Allreduce(..., op=MPI.SUM): every process gets the sum, of the type of the buffers: mpi_moments.py:26-27. The list has one
    buffer per process, and all processes make the same calls. *)
Definition allreduce (d : dtype) (n : nat) (bufs : list (list R)) : list R :=
  fold_left (fun acc v => map (store d) (vadd acc v)) bufs (zeros n).

(** The buffer of one process: mpi_moments.py:21-25. *)
Definition buffer (d : dtype) (a : array) : list R := map (store d) (total a ++ [INR (length (rows a))]).

(** mpi_mean: mpi_moments.py:7-28. None: division by zero, numpy gives nan. *)
Definition mpi_mean (d : dtype) (w : nat) (arrs : list array) : option (list R * R) :=
  let g := allreduce d (w + 1) (map (buffer d) arrs) in
  let count := nth w g 0 in
  if Req_EM_T count 0 then None else Some (map (fun s => s / count) (firstn w g), count).

(** np.square(arr - mean), which are floats: mpi_moments.py:44. *)
Definition sqdiffs (mean : list R) (a : array) : array :=
  Array (width a) (map (fun row => map (fun p => (fst p - snd p) * (fst p - snd p)) (combine row mean)) (rows a)).

Inductive result : Type :=
| Moments (mean std : list R) (count : R)
| NotANumber
| AssertionError.

(** mpi_moments: mpi_moments.py:31-47,52. *)
Definition mpi_moments (d : dtype) (w : nat) (arrs : list array) : result :=
  match mpi_mean d w arrs with
  | None => NotANumber
  | Some (mean, count) =>
      match mpi_mean Float w (map (sqdiffs mean) arrs) with
      | None => NotANumber
      | Some (meansqdiff, count1) =>
          if Req_EM_T count1 count then Moments mean (map sqrt meansqdiff) count else AssertionError
      end
  end.

(** Slices of Python: l[:k] and l[k:]. *)
Definition upto (k : Z) (l : list nat) : list nat :=
  if (k <? 0)%Z then firstn (length l - Z.abs_nat k) l else firstn (Z.to_nat k) l.
Definition from (k : Z) (l : list nat) : list nat :=
  if (k <? 0)%Z then skipn (length l - Z.abs_nat k) l else skipn (Z.to_nat k) l.
Definition size (shape : list nat) : nat := fold_right Nat.mul 1%nat shape.
(** The position of an axis, and the shape with keepdims: that axis has one element. *)
Definition place (axis : Z) (shape : list nat) : nat :=
  if (axis <? 0)%Z then (length shape - Z.abs_nat axis)%nat else Z.to_nat axis.
Definition kept (axis : Z) (shape : list nat) : list nat :=
  firstn (place axis shape) shape ++ 1%nat :: skipn (S (place axis shape)) shape.
(** mean.reshape(newshape): mpi_moments.py:48-51. None: reshape raises ValueError. *)
Definition reshaped (axis : Z) (shape : list nat) : option (list nat) :=
  let s := kept axis shape in
  let newshape := upto axis s ++ from (axis + 1) s in
  if Nat.eqb (size newshape) (size s) then Some newshape else None.

(** RunningMeanStd: the variables of the graph: mpi_running_mean_std.py:17-31. The module imports shared.tf_util, which is not the name
    of a module of the package: what is modelled is what it does when that name is made to work. *)
Record running : Type := Running { rsum : list R; rsumsq : list R; rcount : R }.
Definition start (eps : R) (w : nat) : running := Running (zeros w) (repeat eps w) eps.
(** np.square(data): mpi_running_mean_std.py:55. *)
Definition squares (a : array) : array := Array (width a) (map (map (fun x => x * x)) (rows a)).
(** update: mpi_running_mean_std.py:46-59,38-44. One array per process. *)
Definition update (w : nat) (arrs : list array) (s : running) : running :=
  let g := allreduce Float (w + w + 1) (map (fun a => total a ++ total (squares a) ++ [INR (length (rows a))]) arrs) in
  Running (vadd (rsum s) (firstn w g)) (vadd (rsumsq s) (firstn w (skipn w g))) (rcount s + nth (w + w) g 0).
Definition updates (w : nat) (us : list (list array)) (s : running) : running := fold_left (fun s arrs => update w arrs s) us s.
(** mean, std: mpi_running_mean_std.py:34-36. *)
Definition mean (s : running) : list R := map (fun x => x / rcount s) (rsum s).
Definition std (s : running) : list R :=
  map (fun p => sqrt (Rmax (snd p / rcount s - (fst p / rcount s) * (fst p / rcount s)) (1 / 100))) (combine (rsum s) (rsumsq s)).

(** MpiAdam: mpi_adam.py:8-37. As above for the import. Each process has its weights and its moments; the number of updates is the
    same for all, for they take part in the same calls. *)
Record params : Type := Params { beta1 : R; beta2 : R; epsilon : R; scale_grad_by_procs : bool }.
Record process : Type := Process { theta : list R; exp_avg : list R; exp_avg_sq : list R }.
Record adam : Type := Adam { procs : list process; step : nat }.
(** Construction with the given weights: mpi_adam.py:29-35. *)
Definition construct (thetas : list (list R)) : adam :=
  Adam (map (fun t => Process t (zeros (length t)) (zeros (length t))) thetas) 0.
(** The gradient that every process gets: mpi_adam.py:48-52. *)
Definition global_grad (p : params) (n : nat) (grads : list (list R)) : list R :=
  let g := allreduce Float n grads in
  if scale_grad_by_procs p then map (fun x => x / INR (length grads)) g else g.
(** mpi_adam.py:54-61; k is the number of this update, from 1. *)
Definition advance (p : params) (k : nat) (g : list R) (learning_rate : R) (r : process) : process :=
  let step_size := learning_rate * sqrt (1 - beta2 p ^ k) / (1 - beta1 p ^ k) in
  let m := map (fun q => beta1 p * fst q + (1 - beta1 p) * snd q) (combine (exp_avg r) g) in
  let v := map (fun q => beta2 p * fst q + (1 - beta2 p) * (snd q * snd q)) (combine (exp_avg_sq r) g) in
  let d := map (fun q => - step_size * fst q / (sqrt (snd q) + epsilon p)) (combine m v) in
  Process (vadd (theta r) d) m v.
(** check_synced: mpi_adam.py:71-82. The root is the first process. *)
Definition synced (a : adam) : bool :=
  match procs a with
  | [] => true
  | root :: others => forallb (fun r => if list_eq_dec Req_EM_T (theta root) (theta r) then true else false) others
  end.
(** update on all processes: mpi_adam.py:39-61, with the gradient and the learning rate of each. None: AssertionError. *)
Definition update_all (p : params) (n : nat) (grads : list (list R)) (rates : list R) (a : adam) : option adam :=
  if (Nat.eqb (step a mod 100) 0 && negb (synced a))%bool then None
  else Some (Adam (map (fun q => advance p (S (step a)) (global_grad p n grads) (snd q) (fst q)) (combine (procs a) rates)) (S (step a))).
(** sync: mpi_adam.py:63-69. *)
Definition sync (a : adam) : adam :=
  match procs a with
  | [] => a
  | root :: _ => Adam (map (fun r => Process (theta root) (exp_avg r) (exp_avg_sq r)) (procs a)) (step a)
  end.
(** A run: each call has the gradient and the learning rate of each process. *)
Fixpoint run (p : params) (n : nat) (calls : list (list (list R) * list R)) (a : adam) : option adam :=
  match calls with
  | [] => Some a
  | (grads, rates) :: rest => match update_all p n grads rates a with None => None | Some a' => run p n rest a' end
  end.
