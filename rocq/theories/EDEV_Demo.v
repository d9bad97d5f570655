(** Concrete EDEV runs. *)
From Coq Require Import List Arith ZArith QArith Bool Permutation Lia Lqa.
From Verif Require Import Base BaseFacts Space_Model Space_Spec Opt_Model Opt_Spec Opt_Facts2 Pop_Model Pop_Spec EDEV_Model EDEV_Spec.
Import ListNotations.
Open Scope nat_scope.

(** Draws that work for every size: the donor draws move on with every attempt. *)
Definition jd0 (vd : vdraw) : jdraw := JDraw (fun _ => 1 # 2)%Q (fun _ => 1 # 2)%Q (fun k i => i + k) (fun k i => S i + k) (fun i => i)
  (fun i j => if Nat.even (i + j) then 1 # 4 else 3 # 4)%Q (fun i => i) (fun _ => vd) (fun n => seq 0 n).
Definition cd0 (vd : vdraw) : cdraw := CDraw (fun i => GDraw (fun k => i + k) [i; 2; 1] 0 (fun j => 1 # 2)%Q (fun k => i + 2 * k) (1 # 3)%Q
  [1; 2; i; 3; 0] (1 # 2)%Q i (fun j => 1 # 2)%Q) (fun _ => vd).
Definition pd0 (vd : vdraw) : pdraw := PDraw (fun _ => 0)%Q (fun i => i) (fun i => i) (fun i => i) (fun i => 2 * i) (fun i => i)
  (fun _ _ => 1 # 2)%Q (fun i => i) (fun _ _ => 1 # 2)%Q (fun n _ => seq 0 n) (fun _ _ => 1 # 2)%Q (fun _ _ => 1 # 3)%Q (fun _ => vd).
Definition dr0 (vd : vdraw) : nat -> edraw := fun k => EDraw (rev (seq 0 21)) (jd0 vd) (cd0 vd) (pd0 vd).
Definition sd0 (vd vd3 : vdraw) : sdraw := SDraw (fun _ => vd) (seq 0 21) (fun _ => vd3) [2; 0; 1].

Lemma dr0_ok vd k : draws_ok 21 (dr0 vd k).
Proof. split; [symmetry; apply Permutation_rev|]. split; intros; apply Permutation_refl. Qed.
Lemma sd0_ok vd vd3 : start_draws_ok 21 (sd0 vd vd3).
Proof.
  split; cbn; [apply Permutation_refl|]. change [2; 0; 1] with ([2] ++ [0; 1]). change [0; 1; 2] with ([0; 1] ++ [2]). apply Permutation_app_comm.
Qed.
Lemma dr0_enough vd k : enough_draws 21 7 (dr0 vd k).
Proof.
  split.
  - intros n a Hn Ha. assert (n = 7) by (cbn in Hn; lia). subst n. unfold donors_found, dr0, e_j, jd0, j_r1, j_r2.
    do 8 (destruct a as [|a]; [vm_compute; discriminate|]). cbn in Ha. lia.
  - intros i. cbn. lia.
Qed.

(** Two continuous variables in [-5,5], minimising x^2 + y^2. *)
Definition ds1 := [Dim false (-5) 5; Dim false (-5) 5]%Q.
Definition fit1 (x : list Q) : Q := Qred (fold_left (fun a b => a + b * b)%Q x 0%Q).
Definition vd1 : vdraw := VDraw (fun _ => 1 # 2)%Q (fun _ => 0).
Definition init1 : list (list Q) := map (fun i => [(inject_Z (Z.of_nat i) - 10) / 3; inject_Z (Z.of_nat ((7 * i) mod 9)) - 3]%Q) (seq 0 21).
Notation run1 := (ed_evolute (fun x => x) Mmin fit1 ds1 NearestInt (1 # 3) 21 2 1 (sd0 vd1 vd1) (dr0 vd1) init1).

Lemma wf1 : wf_dims ds1. Proof. repeat constructor; cbn; try discriminate; lra. Qed.
Lemma disc1 : discrete_ok NearestInt ds1. Proof. split; [discriminate|]. left; auto. Qed.
Lemma rows1 : Forall (fun v : list Q => length v = length ds1) init1. Proof. repeat constructor. Qed.
Example slice1 : slice_index (1 # 3) 21 = Some 7. Proof. reflexivity. Qed.
Example run1_result : exists r, run1 = Some r /\ length (er_log r) = 21 + 35 + 35 /\ Qlt (er_y r) (fit1 (nth 10 init1 [])) /\
  map (fun t => length (g1 (fst (fst t)))) (er_trace r) = [7; 7].
Proof.
  match goal with |- exists r, ?e = _ /\ _ => let v := eval vm_compute in e in assert (E : e = v) by (vm_compute; reflexivity); rewrite E end.
  eexists. split; [reflexivity|]. vm_compute. auto.
Qed.

(** An integer variable in {0,1} and a constant one, with the sigmoid transformation, minimising -x: the second
    evaluation of the third sub-population visits 1, the search never does. *)
Definition ds2 := [Dim true 0 1; Dim false 0 10]%Q.
Definition fit2 (x : list Q) : Q := match x with [] => 0 | a :: _ => - a end%Q.
Definition vd2 : vdraw := VDraw (fun _ => 9 # 10)%Q (fun _ => 0).
Definition vd2' : vdraw := VDraw (fun _ => 0)%Q (fun _ => 0).
Definition pd2 : pdraw := PDraw (fun _ => 0)%Q (fun i => i) (fun i => i) (fun i => 0) (fun i => 2 * i) (fun i => i)
  (fun _ _ => 1 # 2)%Q (fun i => i) (fun _ _ => 1 # 2)%Q (fun n _ => seq 0 n) (fun _ _ => 1 # 2)%Q (fun _ _ => 1 # 3)%Q (fun _ => vd2).
Definition dr2 : nat -> edraw := fun k => EDraw (rev (seq 0 21)) (jd0 vd2) (cd0 vd2) pd2.
Definition init2 : list (list Q) := map (fun _ => [0; 5]%Q) (seq 0 21).
Notation run2 := (ed_evolute (fun _ => 1%Q) Mmin fit2 ds2 Sigmoid (1 # 3) 21 2 1 (sd0 vd2 vd2') dr2 init2).
Lemma wf2 : wf_dims ds2. Proof. constructor; [split; [cbn; lra|intros _; split; [exists 0%Z|exists 1%Z]; reflexivity]|]. constructor; [split; cbn; [lra|discriminate]|constructor]. Qed.
Lemma disc2 : discrete_ok Sigmoid ds2. Proof. split; [discriminate|]. right. repeat constructor. Qed.
Lemma rows2 : Forall (fun v : list Q => length v = length ds2) init2. Proof. repeat constructor. Qed.
Lemma dr2_ok k : draws_ok 21 (dr2 k).
Proof. split; [symmetry; apply Permutation_rev|]. split; intros; apply Permutation_refl. Qed.
Lemma run2_misses : exists r, run2 = Some r /\ In [1; 5]%Q (er_again r) /\ Qlt (fit2 [1; 5]%Q) (er_y r).
Proof.
  match goal with |- exists r, ?e = _ /\ _ => let v := eval vm_compute in e in assert (E : e = v) by (vm_compute; reflexivity); rewrite E end.
  eexists. split; [reflexivity|]. vm_compute. split; [left; reflexivity|reflexivity].
Qed.

(** The coordinate that JADE's crossover must take from the mutant: with four individuals of two
    variables, individual 3 gets none, whatever the scale factors. *)
Definition jd3 : jdraw := JDraw (fun _ => 0%Q) (fun _ => 0)%Q (fun k i => i + k) (fun k i => S i + k) (fun i => i)
  (fun _ _ => 1 # 2)%Q (fun i => 0) (fun _ => vd1) (fun n => seq 0 n).
Definition pop3 : list (list Q) := [[0; 1]; [1; 3]; [2; 4]; [3; 2]]%Q.
Lemma blend_same f x : forall j v, length v = length x -> (forall k, j <= k < j + length x -> f k = true) -> blend f j x v = x.
Proof.
  induction x as [|a x IH]; intros j [|b v] L F; simpl in *; auto; try discriminate. rewrite F by lia. f_equal. apply IH; [lia|]. intros k Hk. apply F. lia.
Qed.
Lemma no_mutant F : exists raw, jade_trials ds1 (with_F jd3 F) [] pop3 [1; 10; 20; 13]%Q = Some raw /\ nth_error raw 3 = nth_error pop3 3.
Proof.
  unfold jade_trials. match goal with |- context [gnR1R2 ?a ?b ?c ?d ?e] => let v := eval vm_compute in (gnR1R2 a b c d e) in
    replace (gnR1R2 a b c d e) with v by (vm_compute; reflexivity) end. cbn [bind].
  match goal with |- context [map fst ?o] => let v := eval vm_compute in (map fst o) in replace (map fst o) with v by (vm_compute; reflexivity) end.
  rewrite app_nil_r. cbn [traverse pop3]. unfold jade_row. cbn [length].
  cbn -[blend clip_vec Qplus Qmult vadd vsub vscale jade_mask]. eexists. split; [reflexivity|]. cbn [nth_error]. f_equal. apply blend_same.
  - refine (clip_length ds1 _ wf1 _); reflexivity.
  - intros [|[|k]] Hk; [reflexivity|reflexivity|]. cbn in Hk. lia.
Qed.
