(** What C125 and C126 are stated with. *)
From Coq Require Import Reals List ZArith Arith Bool.
From Verif Require Import MP_Model.
Import ListNotations.
Open Scope R_scope.
(** Sums, means, and standard deviations of numbers. *)
Definition sum (l : list R) : R := fold_right Rplus 0 l.
Definition average (l : list R) : R := sum l / INR (length l).
Definition deviation (l : list R) : R := sqrt (average (map (fun x => (x - average l) ^ 2) l)).
(** The rows of all processes, and one column of them. *)
Definition pooled (arrs : list array) : list (list R) := concat (map rows arrs).
Definition column (j : nat) (data : list (list R)) : list R := map (fun row => nth j row 0) data.
(** Arrays with w columns. *)
Definition shaped (w : nat) (arrs : list array) : Prop :=
  Forall (fun a => width a = w /\ Forall (fun row => length row = w) (rows a)) arrs.
(** Numbers that are natural. *)
Definition natural (x : R) : Prop := exists n : nat, x = INR n.
(** The rows of all calls of update. *)
Definition seen (us : list (list array)) : list (list R) := concat (map pooled us).
(** Adam: the moments after the gradients gs of one weight, the newest last, and the step of the paper from them. *)
Definition decayed (b : R) (gs : list R) : R :=
  (1 - b) * sum (map (fun p => b ^ fst p * snd p) (combine (seq 0 (length gs)) (rev gs))).
Definition first_moment (p : params) (gs : list R) : R := decayed (beta1 p) gs / (1 - beta1 p ^ length gs).
Definition second_moment (p : params) (gs : list R) : R := decayed (beta2 p) (map (fun g => g ^ 2) gs) / (1 - beta2 p ^ length gs).
Definition paper_step (p : params) (rate : R) (gs : list R) : R :=
  rate * first_moment p gs / (sqrt (second_moment p gs) + epsilon p / sqrt (1 - beta2 p ^ length gs)).
(** The gradient that an update uses: the mean over the processes, or the sum. *)
Definition joined (p : params) (grads : list (list R)) (j : nat) : R :=
  if scale_grad_by_procs p then average (column j grads) else sum (column j grads).
Definition usual (p : params) : Prop := 0 <= beta1 p < 1 /\ 0 <= beta2 p < 1 /\ 0 < epsilon p.
(** Calls with gradients of n weights and learning rates from P processes. *)
Definition fits (n P : nat) (calls : list (list (list R) * list R)) : Prop :=
  Forall (fun c => length (fst c) = P /\ Forall (fun g => length g = n) (fst c) /\ length (snd c) = P) calls.
Definition same_rates (calls : list (list (list R) * list R)) : Prop := Forall (fun c => forall x y, In x (snd c) -> In y (snd c) -> x = y) calls.
Definition history (p : params) (calls : list (list (list R) * list R)) (j : nat) : list R := map (fun c => joined p (fst c) j) calls.
(** Processes with the same weights and moments. *)
Definition agree (a : adam) : Prop := forall r r', In r (procs a) -> In r' (procs a) -> r = r'.
Definition weight (a : adam) (i j : nat) : R := nth j (nth i (map theta (procs a)) []) 0.
