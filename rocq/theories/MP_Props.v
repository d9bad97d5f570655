(** Statistics over several processes: C125. The optimizer over several processes: C126. *)
From Coq Require Import Reals List ZArith Permutation.
From Verif Require Import MP_Model MP_Spec MP_Proofs MP_Ints MP_Running MP_Adam.
Import ListNotations.
Open Scope R_scope.

(** C125: mpi_moments gives, on every process, the mean, the population standard deviation and the number of the rows of all. *)
Theorem C125_moments : forall w arrs, shaped w arrs -> pooled arrs <> [] ->
  exists m s, mpi_moments Float w arrs = Moments m s (INR (length (pooled arrs))) /\ length m = w /\ length s = w
    /\ forall j, (j < w)%nat -> nth j m 0 = average (column j (pooled arrs)) /\ nth j s 0 = deviation (column j (pooled arrs)).
Proof. exact moments_exact. Qed.
Print Assumptions C125_moments.

(** C125: mpi_mean gives the mean and the number. *)
Theorem C125_mean : forall w arrs, shaped w arrs -> pooled arrs <> [] ->
  exists m, mpi_mean Float w arrs = Some (m, INR (length (pooled arrs))) /\ length m = w
    /\ forall j, (j < w)%nat -> nth j m 0 = average (column j (pooled arrs)).
Proof. exact mean_exact. Qed.
Print Assumptions C125_mean.

(** C125: the split over processes and the order of rows do not matter. *)
Theorem C125_split : forall w arrs arrs', shaped w arrs -> shaped w arrs' -> Permutation (pooled arrs) (pooled arrs') ->
  mpi_moments Float w arrs = mpi_moments Float w arrs'.
Proof. exact split_free. Qed.
Print Assumptions C125_split.

(** C125: without any rows there are no numbers. *)
Theorem C125_empty : forall w arrs, shaped w arrs -> pooled arrs = [] -> mpi_moments Float w arrs = NotANumber.
Proof. exact nothing. Qed.
Print Assumptions C125_empty.

(** C125: arrays of unsigned integers give the same, as long as the sums and the number fit in their type. *)
Theorem C125_integers : forall b w arrs, shaped w arrs -> Forall (Forall natural) (pooled arrs) ->
  (forall j, (j < w)%nat -> sum (column j (pooled arrs)) < 2 ^ b) -> INR (length (pooled arrs)) < 2 ^ b ->
  mpi_mean (Unsigned b) w arrs = mpi_mean Float w arrs /\ mpi_moments (Unsigned b) w arrs = mpi_moments Float w arrs.
Proof. exact (fun b w arrs S N B C => conj (small_mean b w arrs S N B C) (small_moments b w arrs S N B C)). Qed.
Print Assumptions C125_integers.

(** C125: otherwise they need not: sums are kept in the type of the array, so the mean of the bytes 200 and 100 is 22. *)
Theorem C125_bytes_refuted : exists arrs, shaped 1 arrs /\ pooled arrs = [[200]; [100]] /\ mpi_mean (Unsigned 8) 1 arrs = Some ([22], 2).
Proof. exact bytes_wrong. Qed.
Print Assumptions C125_bytes_refuted.

(** C125: and mpi_moments of more rows than the type can count, such as 256 rows of bytes, gives nan or raises AssertionError. *)
Theorem C125_rows_raises : forall b w arrs, shaped w arrs -> 2 ^ b <= INR (length (pooled arrs)) ->
  mpi_moments (Unsigned b) w arrs = NotANumber \/ mpi_moments (Unsigned b) w arrs = AssertionError.
Proof. exact many_rows. Qed.
Print Assumptions C125_rows_raises.

(** C125: the result has the shape of the array without the axis, for all axes counted from the front, and all but the last counted from
    the back. *)
Theorem C125_axis : forall l n r axis, axis = Z.of_nat (length l) \/ (r <> [] /\ axis = - Z.of_nat (S (length r)))%Z ->
  reshaped axis (l ++ n :: r) = Some (l ++ r).
Proof. exact axis_right. Qed.
Print Assumptions C125_axis.

(** C125: axis -1 raises ValueError, unless the rest has one element; for vectors it gives a vector of one element and not a number. *)
Theorem C125_last_axis_refuted : forall l n, ((1 < size l)%nat -> reshaped (-1) (l ++ [n]) = None) /\ (l = [] -> reshaped (-1) (l ++ [n]) = Some [1%nat]).
Proof. exact last_axis. Qed.
Print Assumptions C125_last_axis_refuted.

(** C125: RunningMeanStd after any calls of update: the mean and the root of the variance over all rows, with epsilon added to the number
    and to the sum of squares, and 0.01 for smaller variances. *)
Theorem C125_running : forall eps w us, Forall (shaped w) us ->
  let s := updates w us (start eps w) in let n := INR (length (seen us)) in
  length (mean s) = w /\ length (std s) = w
  /\ forall j, (j < w)%nat -> nth j (mean s) 0 = sum (column j (seen us)) / (n + eps)
    /\ nth j (std s) 0 = sqrt (Rmax ((sum (map (fun x => x ^ 2) (column j (seen us))) + eps) / (n + eps)
                                     - (sum (column j (seen us)) / (n + eps)) ^ 2) (1 / 100)).
Proof. exact running_is. Qed.
Print Assumptions C125_running.

(** C125: with epsilon 0 these are the mean and the standard deviation, but at least 0.1. *)
Theorem C125_running_exact : forall w us, Forall (shaped w) us -> seen us <> [] ->
  let s := updates w us (start 0 w) in length (mean s) = w /\ length (std s) = w
  /\ forall j, (j < w)%nat -> nth j (mean s) 0 = average (column j (seen us)) /\ nth j (std s) 0 = Rmax (deviation (column j (seen us))) (1 / 10).
Proof. exact running_exact. Qed.
Print Assumptions C125_running_exact.

(** C125: so the std of equal rows is 0.1, not 0. *)
Theorem C125_floor_refuted : forall x n, (0 < n)%nat -> exists us, Forall (shaped 1) us /\ column 0 (seen us) = repeat x n
  /\ deviation (repeat x n) = 0 /\ std (updates 1 us (start 0 1)) = [1 / 10].
Proof. exact floor_wrong. Qed.
Print Assumptions C125_floor_refuted.

(** C125: epsilon draws the mean to zero by the fraction epsilon / (n + epsilon). *)
Theorem C125_bias : forall eps w us, 0 <= eps -> Forall (shaped w) us -> seen us <> [] ->
  forall j, (j < w)%nat -> average (column j (seen us)) - nth j (mean (updates w us (start eps w))) 0
    = average (column j (seen us)) * (eps / (INR (length (seen us)) + eps)).
Proof. exact running_bias. Qed.
Print Assumptions C125_bias.

(** C125: how rows are spread over calls and processes, and their order, does not matter. *)
Theorem C125_order : forall eps w us us', Forall (shaped w) us -> Forall (shaped w) us' -> Permutation (seen us) (seen us') ->
  mean (updates w us (start eps w)) = mean (updates w us' (start eps w)) /\ std (updates w us (start eps w)) = std (updates w us' (start eps w)).
Proof. exact running_order. Qed.
Print Assumptions C125_order.

(** C126: processes that start with the same weights and use the same learning rates never raise, and stay equal, whatever gradients
    they have. *)
Theorem C126_together : forall p n P t calls, fits n P calls -> same_rates calls ->
  exists a, run p n calls (construct (repeat t P)) = Some a /\ agree a /\ length (procs a) = P /\ step a = length calls.
Proof. exact adam_together. Qed.
Print Assumptions C126_together.

(** C126: each update moves each weight by the step of Adam for the means, or the sums, of the gradients over the processes. *)
Theorem C126_paper : forall p n thetas calls grads rates a a', usual p -> Forall (fun t => length t = n) thetas ->
  fits n (length thetas) (calls ++ [(grads, rates)]) ->
  run p n calls (construct thetas) = Some a -> update_all p n grads rates a = Some a' ->
  forall i j, (i < length thetas)%nat -> (j < n)%nat ->
  weight a' i j = weight a i j - paper_step p (nth i rates 0) (history p calls j ++ [joined p grads j]).
Proof. exact adam_paper. Qed.
Print Assumptions C126_paper.

(** C126: which process has which gradient does not matter. *)
Theorem C126_order : forall p n grads grads', Forall (fun g => length g = n) grads -> Permutation grads grads' ->
  global_grad p n grads = global_grad p n grads'.
Proof. exact grad_perm. Qed.
Print Assumptions C126_order.

(** C126: for constant gradients a step is shorter than the learning rate, and downhill. *)
Theorem C126_constant : forall p rate g k, usual p -> 0 < rate -> (0 < k)%nat ->
  Rabs (paper_step p rate (repeat g k)) < rate /\ (0 < g -> 0 < paper_step p rate (repeat g k)) /\ (g < 0 -> paper_step p rate (repeat g k) < 0).
Proof. exact adam_constant. Qed.
Print Assumptions C126_constant.

(** C126: update raises exactly if the weights of processes differ and the number of updates so far is a multiple of 100. *)
Theorem C126_check : forall p n grads rates a, update_all p n grads rates a = None <->
  (step a mod 100)%nat = 0%nat /\ exists i, (i < length (procs a))%nat /\ nth i (map theta (procs a)) [] <> nth 0 (map theta (procs a)) [].
Proof. exact adam_check. Qed.
Print Assumptions C126_check.

(** C126: so processes that use different learning rates drift apart for 100 updates before the next raises. *)
Theorem C126_unnoticed_refuted : forall p, usual p -> let c := ([[1]; [1]], [1; 0]) in
  (forall k, (0 < k <= 100)%nat -> exists a, run p 1 (repeat c k) (construct [[0]; [0]]) = Some a /\ weight a 0 0 < weight a 1 0)
  /\ run p 1 (repeat c 101) (construct [[0]; [0]]) = None.
Proof. exact adam_unnoticed. Qed.
Print Assumptions C126_unnoticed_refuted.

(** C126: the moments are equal on all processes all the same. *)
Theorem C126_moments : forall p n thetas calls a, Forall (fun t => length t = n) thetas -> fits n (length thetas) calls ->
  run p n calls (construct thetas) = Some a -> forall r r', In r (procs a) -> In r' (procs a) -> exp_avg r = exp_avg r' /\ exp_avg_sq r = exp_avg_sq r'.
Proof. exact adam_moments. Qed.
Print Assumptions C126_moments.

(** C126: and sync, at any time, gives all processes the weights of the first, and then they stay equal as if they had been constructed so. *)
Theorem C126_sync : forall p n thetas calls a more, Forall (fun t => length t = n) thetas -> fits n (length thetas) calls ->
  run p n calls (construct thetas) = Some a -> fits n (length thetas) more -> same_rates more ->
  agree (sync a) /\ (forall j, weight (sync a) 0 j = weight a 0 j) /\ exists a', run p n more (sync a) = Some a' /\ agree a'.
Proof. exact adam_sync. Qed.
Print Assumptions C126_sync.
