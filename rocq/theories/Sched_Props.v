(** Properties C11, C12, C47: annealing schedules. *)
From Coq Require Import List Arith ZArith QArith Bool Lia Lqa.
From Verif Require Import Base Sched_Model Sched_Spec Sched_Proofs.
Import ListNotations.
Open Scope Q_scope.

(** C11 *)
Theorem C11_linear_schedule : forall T final_p initial_p, (1 <= T)%nat ->
  exists v : nat -> Q, (forall t, linear_value T final_p initial_p t = Some (v t)) /\
    v 0%nat == initial_p /\ (forall t, (T <= t)%nat -> v t == final_p) /\
    (forall t, (t <= T)%nat ->
        v t == initial_p + (inject_Z (Z.of_nat t) / inject_Z (Z.of_nat T)) * (final_p - initial_p)) /\
    (forall t, between initial_p final_p (v t)) /\
    (initial_p <= final_p -> forall s t, (s <= t)%nat -> v s <= v t) /\
    (final_p <= initial_p -> forall s t, (s <= t)%nat -> v t <= v s).
Proof. exact linear_spec. Qed.
Print Assumptions C11_linear_schedule.

Example C11_example : exists v, linear_value 100 (1#50) 1 50 = Some v /\ v == 51#100.
Proof. eexists. split; [reflexivity|]. vm_compute. reflexivity. Qed.

(** C12: between consecutive end points (the left one included), and outside. *)
Theorem C12_piecewise : forall eps out p, new_piecewise eps out = Some p ->
  (forall i lt l rt r step,
     nth_error eps i = Some (lt, l) -> nth_error eps (S i) = Some (rt, r) -> lt <= step < rt ->
     exists v, piecewise_value p step = Some v /\ v == l + (step - lt) / (rt - lt) * (r - l) /\
       between l r v /\ (step == lt -> v == l)) /\
  (forall step t v, nth_error eps 0 = Some (t, v) -> step < t -> piecewise_value p step = out) /\
  (forall step t v, nth_error eps (length eps - 1) = Some (t, v) -> t <= step ->
     piecewise_value p step = out).
Proof. exact piecewise_spec. Qed.
Print Assumptions C12_piecewise.

(** The documented "output [value] when [t == time]" fails at the last end point:
    the outside value (here: an assertion failure, or 7) is given instead of 1/10. *)
Theorem C12_last_endpoint_refuted :
  exists eps p q, new_piecewise eps None = Some p /\ new_piecewise eps (Some 7) = Some q /\
    nth_error eps 1 = Some (10, 1#10) /\
    piecewise_value p 10 = None /\ piecewise_value q 10 = Some 7.
Proof. exact (ex_intro _ [(0, 1); (10, 1#10)] (ex_intro _ _ (ex_intro _ _
  (conj eq_refl (conj eq_refl (conj eq_refl (conj eq_refl eq_refl))))))). Qed.
Print Assumptions C12_last_endpoint_refuted.

Example C12_example : exists p v, new_piecewise [(0, 1); (10, 2); (10, 5); (20, 3)] (Some 0) = Some p /\
  piecewise_value p 15 = Some v /\ v == 4.
Proof. do 2 eexists. split; [reflexivity|]. split; [reflexivity|]. vm_compute. reflexivity. Qed.

(** C47: the legacy curves map progress in [0,1] to a factor in [0,1] ... *)
Theorem C47_curves_unit : forall c,
  In c [constant; linear_schedule; middle_drop; double_linear_con; double_middle_drop] ->
  forall p, 0 <= p -> p <= 1 -> 0 <= c p <= 1.
Proof. exact curves_unit. Qed.
Print Assumptions C47_curves_unit.

(** ... and never increase, except double_middle_drop, which jumps up again. *)
Theorem C47_curves_nonincreasing : forall c,
  In c [constant; linear_schedule; middle_drop; double_linear_con] -> nonincreasing_on_unit c.
Proof. exact curves_mono. Qed.
Print Assumptions C47_curves_nonincreasing.

Theorem C47_double_middle_drop_refuted : ~ nonincreasing_on_unit double_middle_drop.
Proof. exact double_middle_drop_not_mono. Qed.
Print Assumptions C47_double_middle_drop_refuted.

(** The k-th call of [Scheduler.value] gives the value of step k. *)
Theorem C47_scheduler_calls : forall n s, (1 <= svals s)%nat ->
  sched_run s n = Some (map (fun k => sinit s * curve s (inject_Z (Z.of_nat (sstep s + k)) / inject_Z (Z.of_nat (svals s)))) (seq 0 n)).
Proof. exact sched_run_spec. Qed.
Print Assumptions C47_scheduler_calls.

(** Past its horizon the linear schedule yields negative rates. *)
Theorem C47_linear_overrun_refuted : forall init n k, 0 < init -> (1 <= n)%nat -> (n < k)%nat ->
  exists v, value_steps (new_scheduler init n linear_schedule) k = Some v /\ v < 0.
Proof. exact linear_sched_negative. Qed.
Print Assumptions C47_linear_overrun_refuted.

Example C47_example : exists vs, sched_run (new_scheduler 2 4 middle_drop) 5 = Some vs /\
  Forall2 Qeq vs [2; 3#2; 3#20; 3#20; 3#20].
Proof. eexists. split; [reflexivity|]. repeat constructor. Qed.
