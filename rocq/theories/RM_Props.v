(** The surrogate of the microreactor: C124. *)
From Coq Require Import Reals List ZArith.
From Coquelicot Require Import Coquelicot.
From Verif Require Import RM_Model RM_Spec RM_Integrate RM_Eval RM_Main RM_Final.
From Coq Require Import List.
Import ListNotations.
Open Scope R_scope.

(** C124: integrate is the integral of the function of the table, and integrate_sq that of its square, between any bounds that the table
    covers, if the lower one is not a knot or if there is a knot in between. *)
Theorem C124_integrals : forall ks lb ub, increasing ks -> covers ks lb ub -> lb < ub -> ~ knot ks lb \/ knot_between ks lb ub ->
  exists f v w, follows f ks /\ integrate ks lb ub = Some v /\ is_RInt f lb ub v
    /\ integrate_sq ks lb ub = Some w /\ is_RInt (fun t => f t ^ 2) lb ub w.
Proof. exact integrals_exact. Qed.
Print Assumptions C124_integrals.

(** C124: otherwise it may be wrong: from the knot at 1 to 3/2 in the table 0, 0, 2 at 0, 1, 2 the integral is 1/4, and integrate gives 0. *)
Theorem C124_knot_refuted : exists ks lb ub, increasing ks /\ covers ks lb ub /\ lb < ub /\ knot ks lb /\ integrate ks lb ub = Some 0
  /\ forall f, follows f ks -> is_RInt f lb ub (1 / 4).
Proof. exact knot_wrong. Qed.
Print Assumptions C124_knot_refuted.

(** C124: interp1d gives that function, which is continuous, and raises outside of the table. *)
Theorem C124_interpolant : forall ks, increasing ks -> ks <> nil -> exists f, follows f ks /\ (forall t, continuous f t)
  /\ forall t, (covers ks t t -> interp1d ks t = Some (f t)) /\ (~ covers ks t t -> interp1d ks t = None).
Proof. exact interpolant. Qed.
Print Assumptions C124_interpolant.

(** C124: adj_coords gives the angle in (-pi, pi] that differs by whole turns. *)
Theorem C124_angles : forall t, - PI < adj t <= PI /\ (exists k : Z, adj t = t + 2 * PI * IZR k)
  /\ (forall k : Z, adj (t + 2 * PI * IZR k) = adj t) /\ (- PI < t <= PI -> adj t = t).
Proof. exact angles. Qed.
Print Assumptions C124_angles.

(** C124: eval is the sum over drums of zeta times the change of the integral of the squared flux over the coating, for all angles. *)
Theorem C124_eval : forall m pert, fine m -> generic m (adjusted pert) -> eval m pert = Some (worth m (adjusted pert)).
Proof. exact eval_is. Qed.
Print Assumptions C124_eval.

(** C124: the drums 1, 4, 5 and 8 have the first table and a coating of 130 degrees, the others the second and 145 degrees. *)
Theorem C124_drums : forall m i, (i < 8)%nat ->
  (In (S i) [1; 4; 5; 8]%nat -> jm m i = jmA m /\ cangle i = 130 / 180 * PI) /\ (~ In (S i) [1; 4; 5; 8]%nat -> jm m i = jmB m /\ cangle i = 145 / 180 * PI).
Proof. exact drum_tables. Qed.
Print Assumptions C124_drums.

(** C124: whole turns of drums change nothing. *)
Theorem C124_turns : forall m pert (n : nat -> Z), eval m (fun i => pert i + 2 * PI * IZR (n i)) = eval m pert.
Proof. exact eval_period. Qed.
Print Assumptions C124_turns.

(** C124: evald is the derivative of that sum with respect to the angle of the drum. *)
Theorem C124_derivative : forall m pert k, fine m -> generic m (adjusted pert) -> (k < 8)%nat -> exists d, evald m pert k = Some d
  /\ is_derive (fun t => worth m (turn (adjusted pert) k t)) (adjusted pert k) d.
Proof. exact evald_is. Qed.
Print Assumptions C124_derivative.

(** C124: evalg is the gradient for angles in (-pi, pi]. *)
Theorem C124_gradient : forall m pert, (forall i, (i < 8)%nat -> - PI < pert i <= PI) -> fine m -> generic m pert -> exists ds,
  evalg m pert = Some ds /\ length ds = 8%nat
  /\ forall k, (k < 8)%nat -> is_derive (fun t => worth m (turn pert k t)) (pert k) (nth k ds 0).
Proof. exact gradient. Qed.
Print Assumptions C124_gradient.

(** C124: for other angles it need not be: for the same angles with enough whole turns, evalg raises, and eval does not notice. *)
Theorem C124_far_refuted : forall m pert, exists n : nat, let far := fun i => pert i + 2 * PI * INR n in eval m far = eval m pert /\ evalg m far = None.
Proof. exact far_raises. Qed.
Print Assumptions C124_far_refuted.

(** C124: eval with 8 nominal angles raises, whether they are an array, a list or a tuple. *)
Theorem C124_nominal_raises : forall m pert l, length l = 8%nat ->
  (exists e, eval_py m pert (Array l) = inr e) /\ exists e, eval_py m pert (Sequence l) = inr e.
Proof. exact nominal_raises. Qed.
Print Assumptions C124_nominal_raises.
