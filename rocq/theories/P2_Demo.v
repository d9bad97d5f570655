(** Concrete PESA2 runs. *)
From Coq Require Import List Arith ZArith QArith Bool Lia Lqa.
From Verif Require Import Base BaseFacts Space_Model Space_Spec ER_Model Opt_Model Opt_Spec Opt_Facts2 Pop_Model Pop_Spec Swarm_Model GWO_Model DE_Model
  P2_Model P2_Spec P2_Final.
Import ListNotations.
Open Scope nat_scope.

Definition z1 (x : Q) : Q := 1%Q.
Definition z2 (x a : Q) : Q := x.
Definition hit_fit (k : Q) (x : list Q) : Q := match x with a :: _ => if Qeq_bool a k then 1 else 0%Q | [] => 0%Q end.
Definition id_fit (x : list Q) : Q := match x with a :: _ => a | [] => 0%Q end.
Definition q_par (mt : imethod) (hi : Q) (npop n : nat) (R : Q) (proc : bool) : p2_par :=
  P2Par [Dim true 0 hi] mt npop n n 1 (1#2) R (1#10) 1 proc.
Definition q_vd : vdraw := VDraw (fun _ => 2)%Q (fun i => 0).
Definition q_de (hit : bool) : de_draw := DeDraw 0 1 3 (fun _ => 0%Q) (fun _ => if hit then 0 else 2)%Q (fun _ => 0) (fun _ => 2%Q) (fun _ => 0).
Definition q_draw (far : bool) (g : nat) : p2_draw :=
  P2Draw (fun _ _ => GDraw (fun _ _ => 1#2) (fun _ _ => 1#2) q_vd)%Q
         (fun _ _ => q_de (0 <? g))
         (fun k i => WDraw (if far then if k =? 0 then 1 else (1#5) else 1#4) (1#5) (2#3) (1#3) (fun j => k + i) q_vd)
         (fun i => i) (fun i => i) (fun i => i).
Definition q_xs : list (list Q) := [[1]; [1]; [2]; [0]; [3]; [2]]%Q.
Definition q_big : list (list Q) := map (fun i => [inject_Z (Z.of_nat i)]) (seq 0 40).

Lemma hit_respects k : respects (hit_fit k).
Proof.
  intros x y H. destruct H as [|a b x y E H]; simpl; [reflexivity|].
  assert (Qeq_bool a k = Qeq_bool b k) as ->; [|reflexivity].
  destruct (Qeq_bool a k) eqn:A, (Qeq_bool b k) eqn:B; auto.
  - apply Qeq_bool_iff in A. apply Qeq_bool_neq in B. exfalso. apply B. rewrite <- E. exact A.
  - apply Qeq_bool_neq in A. apply Qeq_bool_iff in B. exfalso. apply A. rewrite E. exact B.
Qed.
Lemma id_respects : respects id_fit.
Proof. intros x y H. destruct H; simpl; auto. reflexivity. Qed.


Definition q_pointb (hi : Z) (x : list Q) : bool :=
  match x with [q] => Qle_bool 0 q && Qle_bool q (inject_Z hi) && Pos.eqb (Qden q) 1 | _ => false end.
Lemma q_feasible hi l : forallb (q_pointb hi) l = true -> Forall (feasible [Dim true 0 (inject_Z hi)]) l.
Proof.
  intros H. rewrite forallb_forall in H. apply Forall_forall. intros x Hx. specialize (H x Hx). unfold q_pointb in H.
  destruct x as [|q [|? ?]]; try discriminate. apply andb_prop in H. destruct H as (H & C). apply andb_prop in H. destruct H as (A & B).
  constructor; [|constructor]. cbn [d_lo d_hi d_int]. split; [apply Qle_bool_iff; auto|]. split; [apply Qle_bool_iff; auto|].
  intros _. exists (Qnum q). apply Pos.eqb_eq in C. destruct q as [n d]. simpl in *. subst d. reflexivity.
Qed.

Lemma q_ready mt hi npop n R proc ngen re xs : mt <> OtherMethod -> (0 < hi)%Z -> 4 < npop -> 1 <= n <= npop ->
  (0 <= R)%Q -> (R <= 1)%Q -> 2 <= ngen -> 1 <= re <= ngen -> npop <= length xs -> forallb (q_pointb hi) xs = true ->
  p2_ready (q_par mt (inject_Z hi) npop n R proc) ngen re xs.
Proof.
  intros Mt Hz N1 N2 R1 R2 G1 G2 L F. assert (Hh : (0 < inject_Z hi)%Q) by (change 0%Q with (inject_Z 0); rewrite <- Zlt_Qlt; auto).
  constructor; cbn [p2_dims p2_method p2_npop p2_nwolves p2_nwhales p2_R q_par]; auto; try lia.
  - constructor; [|constructor]. cbn [d_lo d_hi]. split; [lra|]. intros _. split; [exists 0%Z|exists hi]; reflexivity.
  - split; [auto|]. right. constructor; [|constructor]. cbn [d_lo d_hi]. intros _. exact Hh.
  - apply q_feasible; auto.
Qed.

(** A roomy default memory: the hypotheses of the theorems. *)
Lemma q_ok : p2_ready (q_par NearestInt 4 5 5 (2#5) false) 4 2 q_xs /\ respects id_fit /\ no_sharing_trouble (q_par NearestInt 4 5 5 (2#5) false) /\
  nothing_dropped (q_par NearestInt 4 5 5 (2#5) false) (p2_size None (4 / 2 * 5)) (length q_xs) (4 / 2).
Proof.
  split; [apply (q_ready _ 4); try lia; try lra; [discriminate|simpl; lia|reflexivity]|]. split; [apply id_respects|]. split; [right; left; reflexivity|].
  vm_compute. repeat split; lia.
Qed.
Notation brief o := (option_map (fun r : p2_result => (pq_x r, pq_y r, pq_hist r, pq_size r)) o).
Lemma q_run : brief (p2_evolute z1 z1 z2 Mmax id_fit (q_par NearestInt 4 5 5 (2#5) false) None 4 2 (q_draw false) q_xs) = Some ([4], 4, [4; 4], Some 8%nat)%Q.
Proof. vm_compute. reflexivity. Qed.

(** Idle wolves. *)
Lemma q_idle : p2_ready (q_par NearestInt 4 5 5 (2#5) false) 2 1 q_xs /\ p2_gens 5 5 * 1 = 1.
Proof. split; [|reflexivity]. apply (q_ready _ 4); try lia; try lra; [discriminate|simpl; lia|reflexivity]. Qed.

(** In-place rounding of shared lists. *)
Lemma q_shared : p2_ready (q_par MinMax 4 5 5 (2#5) false) 2 1 q_xs /\
  brief (p2_evolute z1 z1 z2 Mmax id_fit (q_par MinMax 4 5 5 (2#5) false) None 2 1 (q_draw false) q_xs) = Some ([1], 4, [4; 4], Some 11%nat)%Q.
Proof. split; [apply (q_ready _ 4); try lia; try lra; [discriminate|simpl; lia|reflexivity]|]. vm_compute. reflexivity. Qed.

(** A small memory. *)
Lemma q_small : p2_ready (q_par NearestInt 4 5 2 1 false) 4 1 q_xs /\
  brief (p2_evolute z1 z1 z2 Mmax (hit_fit 3) (q_par NearestInt 4 5 2 1 false) (Some 5) 4 1 (q_draw false) q_xs) = Some ([2], 0, [1; 1; 1; 0], Some 5%nat)%Q.
Proof. split; [apply (q_ready _ 4); try lia; try lra; [discriminate|simpl; lia|reflexivity]|]. vm_compute. reflexivity. Qed.

(** The default memory is smaller than the warm-up set. *)
Lemma q_default : p2_ready (q_par NearestInt 40 5 2 0 false) 2 1 q_big /\
  option_map (fun r => (pq_y r, pq_hist r)) (p2_evolute z1 z1 z2 Mmax (hit_fit 0) (q_par NearestInt 40 5 2 0 false) None 2 1 (q_draw false) q_big) = Some (0, [0; 0])%Q.
Proof. split; [apply (q_ready _ 40); try lia; try lra; [discriminate|vm_compute; lia|vm_compute; reflexivity]|]. vm_compute. reflexivity. Qed.

(** A second call with the memory size the first one left. *)
Lemma q_second : p2_ready (q_par NearestInt 4 5 2 1 false) 2 1 (repeat [0%Q] 6) /\ p2_ready (q_par NearestInt 4 5 2 1 false) 4 1 q_xs /\
  option_map (fun ab => (pq_size (fst ab), pq_y (snd ab), pq_hist (snd ab)))
    (p2_twice z1 z1 z2 Mmax (hit_fit 3) (q_par NearestInt 4 5 2 1 false) None 2 1 (q_draw false) (repeat [0%Q] 6) 4 1 (q_draw false) q_xs)
    = Some (Some 4%nat, 0, [1; 0; 0; 0])%Q /\
  option_map pq_y (p2_evolute z1 z1 z2 Mmax (hit_fit 3) (q_par NearestInt 4 5 2 1 false) None 4 1 (q_draw false) q_xs) = Some 1%Q.
Proof.
  split; [apply (q_ready _ 4); try lia; try lra; [discriminate|simpl; lia|reflexivity]|].
  split; [apply (q_ready _ 4); try lia; try lra; [discriminate|simpl; lia|reflexivity]|]. split; vm_compute; reflexivity.
Qed.

(** A better point evaluated by WOA between two replays is forgotten. *)
Definition q_far : list (list Q) := [[40]; [7]; [11]; [22]; [30]; [1]]%Q.
Lemma q_lost : p2_ready (q_par NearestInt 40 6 2 (1#2) false) 2 1 q_far /\
  nothing_dropped (q_par NearestInt 40 6 2 (1#2) false) (p2_size None (2 / 1 * 6)) (length q_far) (2 / 1) /\
  option_map (fun r => (pq_y r, existsb (fun z => match z with [q] => Qeq_bool q 4 | _ => false end) (pq_seen r)))
    (p2_evolute z1 z1 z2 Mmax (hit_fit 4) (q_par NearestInt 40 6 2 (1#2) false) None 2 1 (q_draw true) q_far) = Some (0%Q, true).
Proof.
  split; [apply (q_ready _ 40); try lia; try lra; [discriminate|simpl; lia|reflexivity]|]. split; [vm_compute; repeat split; lia|]. vm_compute. reflexivity.
Qed.
