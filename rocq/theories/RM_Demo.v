(** Cases for C124. *)
From Coq Require Import Reals List Lia Lra Sorted ZArith.
From Coquelicot Require Import Coquelicot.
From Verif Require Import RM_Model RM_Spec RM_Integrate RM_Eval RM_Main.
From Coq Require Import List.
Import ListNotations.
Open Scope R_scope.
(** Knots at the integers from -7 to 7. *)
Definition zig : table := [(-7, 1); (-6, 2); (-5, 1); (-4, 3); (-3, 1); (-2, 2); (-1, 1); (0, 2); (1, 1); (2, 3); (3, 1); (4, 2); (5, 1); (6, 2); (7, 1)].
Definition demo_reactor : reactor := Reactor zig zig (fun j i => INR (j + i)).
Lemma pi_bounds : 3 < PI <= 4. Proof. pose proof PI2_3_2. pose proof PI_4. lra. Qed.
Lemma demo_jm i : jm demo_reactor i = zig. Proof. unfold jm. now destruct (config_a i). Qed.
Lemma zig_knot z : (-7 <= z <= 7)%Z -> knot zig (IZR z).
Proof.
  intros H. assert (Hz : (z = -7 \/ z = -6 \/ z = -5 \/ z = -4 \/ z = -3 \/ z = -2 \/ z = -1 \/ z = 0 \/ z = 1 \/ z = 2 \/ z = 3 \/ z = 4 \/ z = 5 \/ z = 6 \/ z = 7)%Z) by lia.
  exists (nth (Z.to_nat (z + 7)) zig (0, 0)). split; [apply nth_In; cbn; lia|].
  do 14 (destruct Hz as [->|Hz]; [reflexivity|]). now subst z.
Qed.
Lemma zig_integer t : knot zig t -> exists z, t = IZR z.
Proof. intros (p & Hp & <-). unfold zig in Hp. cbn [In] in Hp. repeat (destruct Hp as [<-|Hp]; [eexists; reflexivity|]). destruct Hp. Qed.
Lemma cangle_demo i : (i < 8)%nat -> 130 / 180 * PI <= cangle i <= 145 / 180 * PI.
Proof. intros Hi. pose proof PI_RGT_0. unfold cangle. do 8 (destruct i as [|i]; [cbn; lra|]). lia. Qed.
Example demo_fine : fine demo_reactor.
Proof.
  intros i Hi. rewrite demo_jm. pose proof (cangle_demo i Hi). pose proof pi_bounds. split; [|split].
  - unfold increasing, zig. repeat (constructor; [|repeat (constructor; [cbn; lra|]); constructor]). constructor.
  - exists (-7, 1), (7, 1). cbn [fst]. repeat split; [now left|unfold zig; cbn [In]; eauto 20|lra|lra].
  - intros a Ha Hb. exists (IZR (up a)). destruct (archimed a) as [A1 A2]. split; [|lra].
    apply zig_knot. split; apply le_IZR; lra.
Qed.
Lemma not_integer z a : IZR z < a < IZR (z + 1) -> ~ knot zig a.
Proof. intros [H1 H2] Hk. apply zig_integer in Hk as [w ->]. apply lt_IZR in H1. apply lt_IZR in H2. lia. Qed.
(** All drums at 2. *)
Example demo_generic : generic demo_reactor (fun _ => 2).
Proof.
  intros i Hi. rewrite demo_jm. pose proof (cangle_demo i Hi). pose proof pi_bounds.
  repeat split; [apply (not_integer 0)|apply (not_integer 3)|apply (not_integer (-2))|apply (not_integer 1)]; cbn; lra.
Qed.
Example demo_eval : eval demo_reactor (fun _ => 2 + 2 * PI * 3) = Some (worth demo_reactor (adjusted (fun _ => 2))).
Proof.
  rewrite (eval_period demo_reactor (fun _ => 2) (fun _ => 3%Z)). apply eval_is; [apply demo_fine|].
  intros i Hi. pose proof pi_bounds. assert (E : adjusted (fun _ => 2) i = 2) by (apply adj_id; lra). rewrite E. exact (demo_generic i Hi).
Qed.
