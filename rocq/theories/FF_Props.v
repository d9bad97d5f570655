(** C137: the fractal function F7 of CEC 2008 and the generator of random numbers (Reals). *)
From Coq Require Import List Arith Reals.
From Verif Require Import FF_Model FF_Spec FF_Proofs FF_Final.
Import ListNotations.
Open Scope R_scope.

(** C137: value and generator after an evaluation depend on the point only, not on the generator before. *)
Theorem C137_same : forall G seed choice uniform l (g g' : G), fit G seed choice uniform l g = fit G seed choice uniform l g'.
Proof. exact fit_same. Qed.
Print Assumptions C137_same.
(** C137: no coordinates raise; more than 1000 give 1; one coordinate x gives x + 4 (x (x-1))^2, and in these cases the generator is left
    as seeded with 0. *)
Theorem C137_cases : forall G seed choice uniform l (g : G), (l = [] -> fst (fit G seed choice uniform l g) = None) /\ ((1000 < length l)%nat -> fst (fit G seed choice uniform l g) = Some 1) /\
  (forall x, l = [x] -> fst (fit G seed choice uniform l g) = Some (x + twist x)) /\ ((length l <= 1 \/ 1000 < length l)%nat -> snd (fit G seed choice uniform l g) = seed 0%nat).
Proof. exact fit_cases. Qed.
Print Assumptions C137_cases.
(** C137: the twist of a coordinate is 4 (y (y-1))^2. *)
Theorem C137_twist : forall y, twist y = 4 * (y * (y - 1)) ^ 2.
Proof. exact twist_eq. Qed.
Print Assumptions C137_twist.
(** C137: where every coordinate plus the twist of the next has a size of at least 1/2, the value is the last coordinate plus the twist of
    the first. *)
Theorem C137_outside : forall G seed choice uniform l (g : G), l <> [] -> (length l <= 1000)%nat -> neighbours (fun a b => 1 / 2 <= Rabs (a + twist b)) l ->
  fst (fit G seed choice uniform l g) = Some (last l 0 + twist (hd 0 l)).
Proof. exact fit_outside. Qed.
Print Assumptions C137_outside.
(** C137: and it is never more than 5/2 larger than that for every further coordinate. *)
Theorem C137_upper : forall G seed choice uniform, numpy_draws choice uniform -> forall l (g : G) v, (length l <= 1000)%nat -> fst (fit G seed choice uniform l g) = Some v ->
  v <= last l 0 + twist (hd 0 l) + 5 / 2 * (INR (length l) - 1).
Proof. exact fit_upper. Qed.
Print Assumptions C137_upper.
(** C137: in general the value is the last coordinate, the twist of the first and, for each coordinate plus the twist of the next, at most 8
    dips there with centres from 0 to 1 and depths from 1/8 to 1/2. *)
Theorem C137_dips : forall G seed choice uniform, numpy_draws choice uniform -> forall a l (g : G), (length (a :: l) <= 1000)%nat ->
  exists ds, length ds = length l /\ Forall (fun d => (length d <= 8)%nat /\ Forall (fun p => 0 <= fst p < 1 /\ 1 / 8 <= snd p <= 1 / 2) d) ds /\
  fst (fit G seed choice uniform (a :: l) g) = Some (last (a :: l) 0 + 4 * (a * (a - 1)) ^ 2 +
    fold_right Rplus 0 (map (fun q => sum_dips (fst (fst q) + 4 * (snd (fst q) * (snd (fst q) - 1)) ^ 2) (snd q)) (combine (combine (a :: l) l) ds))).
Proof. exact fit_dips. Qed.
Print Assumptions C137_dips.
(** C137, finding: without bounds there is no minimum: with all other coordinates 1 the value is the last coordinate, whatever it is. *)
Theorem C137_minimum_refuted : forall G seed choice uniform n b (g : G), (2 <= n <= 1000)%nat ->
  exists l, length l = n /\ last l 0 = b /\ Forall (fun x => x = 1) (removelast l) /\ fst (fit G seed choice uniform l g) = Some b.
Proof. exact fit_no_minimum. Qed.
Print Assumptions C137_minimum_refuted.
(** C137, finding: an evaluation seeds the generator that optimizers draw from: what an optimizer draws after an evaluation depends only on
    the point just evaluated, not on its seed. *)
Theorem C137_seed_refuted : forall G seed choice uniform (draws : G -> R * G) propose g0 steps g k, (S k < steps)%nat ->
  let D := search G seed choice uniform draws propose steps [] g in nth_error D (S k) = Some (fst (draws (snd (fit G seed choice uniform (propose (firstn (S k) D)) g0)))).
Proof. exact search_draws. Qed.
Print Assumptions C137_seed_refuted.
(** C137, finding: with points of one coordinate all draws but the first are the same. *)
Theorem C137_stuck_refuted : forall G seed choice uniform (draws : G -> R * G) propose steps g k, (forall h, (length (propose h) <= 1)%nat) -> (S k < steps)%nat ->
  nth_error (search G seed choice uniform draws propose steps [] g) (S k) = Some (fst (draws (seed 0%nat))).
Proof. exact search_stuck. Qed.
Print Assumptions C137_stuck_refuted.
