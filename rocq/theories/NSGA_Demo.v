(** Concrete runs of NSGA-II. *)
From Coq Require Import List Arith ZArith QArith Bool Lia Lqa.
From Verif Require Import Base BaseFacts Space_Model Space_Spec Opt_Model ES_Model ES_Spec ND_Model ND_Spec NDL_Model NSGA_Model NSGA_Spec.
Import ListNotations.
Open Scope nat_scope.

Definition nd_par (mu : nat) : es_par :=
  EsPar [Dim false 0 10; Dim false 0 10]%Q mu mu false (1#2) 0 1 (1#10) 1 true.
Definition nd_fit (x : list Q) : list Q := [nth 0 x 0%Q; nth 1 x 0%Q].
(** Mutation of member [i] by [dx], [dy] (the strategy values are 1/2). *)
Definition nd_mut (i : nat) (dx dy : Q) : odraw :=
  ODraw 0 i 0 0 0 (fun _ => 0%Q) (fun _ => 0%Q)
    (MDraw (fun _ => 0%Q) (fun _ => 0%Q) (fun c => if c =? 0 then 2 * dx else 2 * dy)%Q (fun _ => 0%Q) (fun _ => 0)).
Definition one (q : Q) : Q := 1%Q.
Definition zero (n : nat) : Q := 0%Q.
Definition ind0 (x y : Q) : list Q * list Q := ([x; y], [1#2; 1#2]%Q).


Lemma one_pos : forall q, (0 < one q)%Q.
Proof. intro. reflexivity. Qed.

Lemma nd_good mu init : 2 <= mu -> length init = mu ->
  Forall (fun o => exists x y, o = ind0 x y /\ (0 <= x)%Q /\ (x <= 10)%Q /\ (0 <= y)%Q /\ (y <= 10)%Q) init ->
  nsga_ok nd_fit 2 (nd_par mu) NSGA2 init.
Proof.
  intros M L F. split; [repeat constructor; simpl; try discriminate; unfold Qle; simpl; lia|].
  split; [reflexivity|]. split; [left; reflexivity|]. split; [lia|]. split; [reflexivity|]. split; [exact M|].
  split; [reflexivity|]. split; [exact L|]. split; [|exact I].
  eapply Forall_impl; [|exact F]. intros o (x & y & -> & A & B & C & D). split; [|split].
  - constructor; [|constructor; [|constructor]]; simpl; (split; [auto|split; [auto|discriminate]]).
  - reflexivity.
  - repeat constructor; unfold Qle; simpl; lia.
Qed.
Ltac nd_init := repeat (constructor; [eexists; eexists; split; [reflexivity|]; repeat split; unfold Qle; simpl; lia|]); constructor.

(** Two points that are best in one objective each; the offspring are worse in both. *)
Definition two_init : list (list Q * list Q) := [ind0 0 10; ind0 10 0]%Q.
Definition two_draws (m : mode) (g k : nat) : odraw := match m with Mmax => nd_mut 0 0 (-10) | Mmin => nd_mut 0 10 0 end.
Definition two_run (m : mode) : outcome nsga_state :=
  nsga_evolute one zero zero m nd_fit (nd_par 2) NSGA2 true (two_draws m) two_init 1.

Lemma two_max : exists st, two_run Mmax = Done st /\ In ([10; 0], [10; 0])%Q (out_front Mmax st) /\
  exists y, nth_error (out_y Mmax st) 0 = Some y /\ (y == 0)%Q.
Proof. eexists. split; [vm_compute; reflexivity|]. split; [vm_compute; auto|]. eexists. split; [vm_compute; reflexivity|reflexivity]. Qed.
Lemma two_min : exists st, two_run Mmin = Done st /\ In ([0; 10], [0; 10])%Q (out_front Mmin st) /\
  exists y, nth_error (out_y Mmin st) 0 = Some y /\ (y == 10)%Q.
Proof. eexists. split; [vm_compute; reflexivity|]. split; [vm_compute; auto|]. eexists. split; [vm_compute; reflexivity|reflexivity]. Qed.

(** The value reported was seen at another point. *)
Definition gap_init : list (list Q * list Q) := [ind0 5 5; ind0 4 4]%Q.
Definition gap_draws (g k : nat) : odraw :=
  match g, k with
  | 0, _ => nd_mut 0 (-5) (-5)
  | _, 0 => nd_mut 0 (-5) 5
  | _, _ => nd_mut 0 5 (-5)
  end.
Definition gap_run : outcome nsga_state := nsga_evolute one zero zero Mmax nd_fit (nd_par 2) NSGA2 true gap_draws gap_init 2.
Lemma gap_found : exists st x y, gap_run = Done st /\ nth_error (out_x st) 0 = Some x /\ nth_error (out_y Mmax st) 0 = Some y /\
  (y == 5)%Q /\ (nth 0 (nd_fit x) 0 == 0)%Q.
Proof.
  eexists. eexists. eexists. split; [vm_compute; reflexivity|]. split; [vm_compute; reflexivity|]. split; [vm_compute; reflexivity|].
  split; reflexivity.
Qed.

(** More nondominated points than places: (5,5) is dropped, then (9/2,9/2) is reported. *)
Definition cut_init : list (list Q * list Q) := [ind0 0 10; ind0 10 0; ind0 6 4]%Q.
Definition cut_draws (g k : nat) : odraw :=
  match g, k with
  | 0, 0 => nd_mut 0 5 (-5)
  | 0, 1 => nd_mut 0 9 (-8)
  | 0, _ => nd_mut 0 2 (-2)
  | _, 0 => nd_mut 0 (-(11#2)) (9#2)
  | _, _ => nd_mut 0 (-10) 0
  end.
Definition cut_run : outcome nsga_state := nsga_evolute one zero zero Mmax nd_fit (nd_par 3) NSGA2 true cut_draws cut_init 2.
Lemma cut_found : exists st, cut_run = Done st /\
  (exists x v, In (x, v) (out_front Mmax st) /\ exists x', In x' (s_seen st) /\ better Mmax (nd_fit x') v).
Proof.
  eexists. split; [vm_compute; reflexivity|].
  exists [18#4; 18#4]%Q, [18#4; 18#4]%Q. split; [vm_compute; auto|].
  exists [10#2; 10#2]%Q. split; [vm_compute; auto 10|]. split.
  - repeat constructor; unfold Qle; simpl; lia.
  - exists 0, (10#2)%Q, (18#4)%Q. split; [reflexivity|]. split; [reflexivity|]. reflexivity.
Qed.

Lemma two_ok : nsga_ok nd_fit 2 (nd_par 2) NSGA2 two_init.
Proof. apply nd_good; [lia|reflexivity|nd_init]. Qed.
Lemma gap_ok : nsga_ok nd_fit 2 (nd_par 2) NSGA2 gap_init.
Proof. apply nd_good; [lia|reflexivity|nd_init]. Qed.
Lemma cut_ok : nsga_ok nd_fit 2 (nd_par 3) NSGA2 cut_init.
Proof. apply nd_good; [lia|reflexivity|nd_init]. Qed.
Lemma two_whole : exists st, two_run Mmax = Done st /\ s_cut st = false /\ length (out_front Mmax st) = 2.
Proof. eexists. split; [vm_compute; reflexivity|]. split; reflexivity. Qed.
