(** Concrete travelling salesman environments. *)
From Coq Require Import List Arith ZArith QArith Qround Bool Lia Permutation.
From Verif Require Import Base Opt_Model KP_Model KP_Spec TSP_Model TSP_Spec TSP_Proofs.
Import ListNotations.
Open Scope nat_scope.

(** Four cities on a line with integer coordinates, where the distance needs no rounding. *)
Definition td_dist (p q : Q * Q) : Z := Z.abs (Qfloor (fst p - fst q)).
Definition td : tconf := TConf [(0, 0); (20, 0); (10, 0); (30, 0)]%Q 2.
Definition td_rnd (k : nat) : nat := k.
Example td_wf : wf_tsp td_dist td.
Proof.
  split; [simpl; lia|]. split; [repeat constructor; intro; discriminate|]. split; [simpl; lia|].
  intros p q Hp Hq. simpl in Hp, Hq. repeat destruct Hp as [<-|Hp]; try contradiction; repeat destruct Hq as [<-|Hq]; try contradiction; reflexivity.
Qed.
Example td_step : exists r st, tsp_step_list td_dist td_rnd td (tsp_new td) [0; 0; 0; 0] = Some (r, st) /\ tr_x r = [1; 2; 3; 4] /\ tr_reward r = (-60)%Z /\ tr_done r = false.
Proof. do 2 eexists. split; [vm_compute; reflexivity|]. auto. Qed.
Example td_second : exists st r st', ofold (tsp_op td_dist td_rnd td) (tsp_new td) [TList [0; 0; 0; 0]; TReset] = Some st /\ Forall (tlist_op td) [TList [0; 0; 0; 0]; TReset] /\
  tsp_step_list td_dist td_rnd td st [3; 1; 7; 0] = Some (r, st') /\ tr_x r = [4; 2; 1; 3] /\ tr_reward r = (-60)%Z /\ tr_done r = true.
Proof. do 3 eexists. split; [vm_compute; reflexivity|]. split; [repeat constructor|]. split; [vm_compute; reflexivity|]. auto. Qed.
Example td_one : exists r st, torderly td_dist td td_rnd (tsp_new td) /\ tsp_step_one td_dist td_rnd td (tsp_new td) 3 = Some (r, st) /\ tr_x r = [4] /\ tr_reward r = 0%Z.
Proof. do 2 eexists. split; [constructor|]. split; [vm_compute; reflexivity|]. auto. Qed.

(** info['x'] is not the tour that was rewarded. *)
Lemma td_order : exists rdist rnd c acts r st, wf_tsp rdist c /\ (forall p q, rdist p q = rdist q p) /\ tsp_step_list rdist rnd c (tsp_new c) acts = Some (r, st) /\ tr_reward r <> (- tour_len rdist c (tr_x r))%Z.
Proof.
  exists (fun p q => Z.abs (Qfloor (Qmake (Qnum (fst p)) 1 - Qmake (Qnum (fst q)) 1))), td_rnd, td, [0; 0; 0; 0]. do 2 eexists. split; [|split; [|split; [vm_compute; reflexivity|vm_compute; discriminate]]].
  - split; [simpl; lia|]. split; [repeat constructor; intro; discriminate|]. split; [simpl; lia|].
    intros p q Hp Hq. simpl in Hp, Hq. repeat destruct Hp as [<-|Hp]; try contradiction; repeat destruct Hq as [<-|Hq]; try contradiction; reflexivity.
  - intros [[p1 pd] p2] [[q1 qd] q2]. cbn [fst Qnum]. unfold Qminus, Qplus, Qopp, Qfloor. cbn [Qnum Qden]. rewrite !Z.div_1_r. lia.
Qed.

(** A reset in the middle of a tour keeps the cities of the list: the next tour repeats them. *)
Lemma td_reset : exists rdist rnd c r1 st1 r2 st2, wf_tsp rdist c /\ tsp_step_one rdist rnd c (tsp_new c) 0 = Some (r1, st1) /\
  tsp_step_one rdist rnd c (tsp_reset c st1) 0 = Some (r2, st2) /\ ~ NoDup (tr_x r2).
Proof.
  exists td_dist, td_rnd, td. do 4 eexists. split; [apply td_wf|]. split; [vm_compute; reflexivity|]. split; [vm_compute; reflexivity|].
  cbn. intros N. inversion N; subst. apply H1. simpl; auto.
Qed.

(** Two cities 10^6 apart. *)
Lemma td_far : exists rdist c, 2 <= length (tc_cities c) /\ Forall (fun p => ~ (fst p == sent)%Q) (tc_cities c) /\ 1 <= tc_len c /\
  forall rnd, tsp_step_list rdist rnd c (tsp_new c) [0; 0] = None.
Proof.
  exists td_dist, (TConf [(0, 0); (1000000, 0)]%Q 1). split; [simpl; lia|]. split; [repeat constructor; intro; discriminate|]. split; [simpl; lia|].
  intros rnd. vm_compute. reflexivity.
Qed.

Lemma td_single rdist rnd c : length (tc_cities c) = 1 -> forall st a, tsp_step_list rdist rnd c st [a] = None /\ tsp_step_one rdist rnd c st a = None.
Proof.
  intros L. assert (P : forall st a bk, tsp_place rdist rnd c st a bk = None).
  { intros st a bk. unfold tsp_place. destruct (pick_next _ _ _ _); cbn [bind]; auto. destruct (nth_error _ _); cbn [bind]; auto.
    rewrite L, andb_false_r. reflexivity. }
  intros st a. unfold tsp_step_list, tsp_step_one. cbn [tsp_fill]. rewrite !P. auto.
Qed.
Example td_single_ex : length (tc_cities (TConf [(1, 1)]%Q 1)) = 1.
Proof. reflexivity. Qed.
