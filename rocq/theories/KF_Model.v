(** Model of the optimizer of ACKTR (neorl/rl/baselines/acktr/kfac.py, kfac_utils.py) as ACKTR builds it: kfac_update = 1,
    full_stats_init, async_stats, async_eigen_decomp, channel_fac, factored_damping and weight_decay_dict at their defaults
    (acktr/acktr.py:78, 205-210).  Layers are dense with a bias (op type MatMul); numbers are those of any real closed field. *)
From mathcomp Require Import all_ssreflect all_algebra.
Set Implicit Arguments. Unset Strict Implicit. Unset Printing Implicit Defensive.
Import GRing.Theory Num.Theory.
Local Open Scope ring_scope.

Section Kfac.
Variable R : rcfType.

(** ** The statistics *)
(** cov (kfac.py:440-444): over a batch of b rows. *)
Definition cov b d (X : 'M[R]_(b, d)) : 'M[R]_d := b%:R^-1 *: (X^T *m X).
(** The activations with a column of ones (437-439), for a layer with a bias. *)
Definition act_cov b d (X : 'M[R]_(b, d)) : 'M[R]_(d + 1) := cov (row_mx X (const_mx 1)).
(** The backpropagated derivatives times the batch size (477-481). *)
Definition grad_cov b d (Y : 'M[R]_(b, d)) : 'M[R]_d := cov (b%:R *: Y).
(** _apply_stats, chosen by apply_stats (529-531, 535-549): [n] is stats_step before, [N] is stats_accum_iter. *)
Definition apply_stats d (N : nat) (decay : R) (n : nat) (S new : 'M[R]_d) : 'M[R]_d :=
  if (N <= n)%N then decay *: S + (1 - decay) *: new else S + N%:R^-1 *: new.
(** The statistics after the runs that gave [news], from zero (69, 297-299: _diag_init_coeff is 0). *)
Fixpoint stats_from d N decay n (S : 'M[R]_d) (news : seq 'M[R]_d) : 'M[R]_d :=
  if news is new :: r then stats_from N decay n.+1 (apply_stats N decay n S new) r else S.
Definition stats d N decay (news : seq 'M[R]_d) : 'M[R]_d := stats_from N decay 0 0 news.

(** ** The update of one layer *)
(** clipout_neg (kfac_utils.py:66-75), threshold 1e-6. *)
Definition threshold : R := 10%:R ^- 6.
Definition clipout (x : R) : R := if threshold < x then x else 0.
(** A layer: gradients of weights and bias; eigenvalues and eigenvectors of both statistics. *)
Record layer := Layer { rows : nat; cols : nat; weights : 'M[R]_(rows, cols); bias : 'rV[R]_cols;
                        act_e : 'rV[R]_(rows + 1); act_Q : 'M[R]_(rows + 1); grad_e : 'rV[R]_cols; grad_Q : 'M[R]_cols }.
(** The gradient with that of the bias as its last row (713-719). *)
Definition stacked (l : layer) : 'M[R]_(rows l + 1, cols l) := col_mx (weights l) (bias l).
(** Projection, division by eigenvalues with damping, projection back (721-796; gmatmul of matrices, kfac_utils.py:60-61). *)
Definition project (l : layer) : 'M[R]_(rows l + 1, cols l) := (act_Q l)^T *m stacked l *m grad_Q l.
Definition coeff (damping : R) (l : layer) (i : 'I_(rows l + 1)) (j : 'I_(cols l)) : R := clipout (act_e l 0 i) * clipout (grad_e l 0 j) + damping.
Definition whiten (damping : R) (l : layer) : 'M[R]_(rows l + 1, cols l) := \matrix_(i, j) (project l i j / coeff damping i j).
Definition precond (damping : R) (l : layer) : 'M[R]_(rows l + 1, cols l) := act_Q l *m whiten damping l *m (grad_Q l)^T.
(** The updates of weights and bias (798-817). *)
Definition weights_update damping l : 'M[R]_(rows l, cols l) := usubmx (precond damping l).
Definition bias_update damping l : 'rV[R]_(cols l) := dsubmx (precond damping l).

(** ** Clipping *)
(** v_g (822-829). *)
Definition inner m n (X Y : 'M[R]_(m, n)) : R := \sum_i \sum_j X i j * Y i j.
Definition v_g (damping lr : R) (ls : seq layer) : R :=
  \sum_(l <- ls) (lr ^+ 2 * inner (weights_update damping l) (weights l) + lr ^+ 2 * inner (bias_update damping l) (bias l)).
(** scaling (835): a quotient by zero is infinite. *)
Definition scaling (clip v : R) : R := if v == 0 then 1 else Num.min 1 (Num.sqrt (clip / v)).
End Kfac.

(** ** The order of updates *)
(** The counters sgd_step, stats_step and factor_step. *)
Record counters := Counters { sgd_step : nat; stats_step : nat; factor_step : nat }.
(** Which updates of the parameters one run makes: the momentum step with the gradient (973-989), and the momentum step of kfac
    (940-962), the latter with preconditioned gradients or not. *)
Record updates := Updates { cold : bool; kfac : option bool }.
(** One run of the training operation (apply_gradients, 894-999).  The graph of apply_gradients_kfac is built outside the branches of the last
    tf.cond, so it runs whichever branch is taken.  TensorFlow does not order the reads of counters by the conditions after the increments
    of the same run: [late_stats], [late_factor], [late_sgd] say whether a condition sees the new value. *)
Record reads := Reads { late_stats : bool; late_factor : bool; late_sgd : bool }.
Definition train (cold_iter : nat) (r : reads) (c : counters) : updates * counters :=
  let warm := (cold_iter < sgd_step c)%N in
  let sgd' := if warm then sgd_step c else (sgd_step c).+1 in
  let stats' := (stats_step c).+1 in
  let factor' := if (cold_iter <= (if late_stats r then stats' else stats_step c))%N then (factor_step c).+1 else factor_step c in
  let pre := (0 < (if late_factor r then factor' else factor_step c))%N in
  let opt := (cold_iter <= (if late_sgd r then sgd' else sgd_step c))%N in
  (Updates (~~ warm) (if opt then Some pre else None), Counters sgd' stats' factor').
Fixpoint trainings (cold_iter : nat) (rs : seq reads) (c : counters) : seq updates :=
  if rs is r :: rest then let p := train cold_iter r c in p.1 :: trainings cold_iter rest p.2 else [::].
Definition start : counters := Counters 0 0 0.
