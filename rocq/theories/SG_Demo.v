(** The hypotheses of the surrogate theorems are met by concrete runs. *)
From Coq Require Import List Arith ZArith QArith Qabs Bool Lia Lqa Permutation.
From Verif Require Import Base Space_Model Space_Spec Opt_Model Opt_Spec Pop_Model Pop_Spec Swarm_Model HHO_Model P2_Model SG_Model SG_Spec SG_Latin SG_GA SG_NGA SG_NHHO SG_Units SG_Wit.
Import ListNotations.
Open Scope nat_scope.

Example sg_draws_ok : unit_draws (lh_u sg_lh) /\ (forall i j, 0 <= lh_u sg_lh i j <= 1)%Q /\ (forall i j, 0 < lh_u sg_lh i j < 1)%Q.
Proof. split; [|split]; intros i j; simpl; lra. Qed.
Example sg_mix_ok : wf_dims sg_mix /\ sg_mix <> [] /\ Forall (fun d => (d_lo d < d_hi d)%Q) sg_mix /\ discrete_ok NearestInt sg_mix.
Proof.
  split; [|split; [discriminate|split]].
  - repeat constructor; simpl; intros; try discriminate; [exists 0%Z|exists 3%Z]; reflexivity.
  - repeat constructor.
  - split; [discriminate|left; reflexivity].
Qed.
Example sg_latin_run : exists rows, latin 4 (lh_u sg_lh) (lh_sh sg_lh) sg_mix = Some rows /\ length rows = 4 /\ distinct_rows rows.
Proof.
  destruct (latin_total 4 (lh_u sg_lh) (lh_sh sg_lh) sg_mix) as (rows & E); [lia|destruct sg_mix_ok as (_ & _ & F & _); eapply Forall_impl; [|exact F]; intros; simpl in *; lra|].
  exists rows. split; auto. split; [apply latin_rows in E; apply E|]. eapply latin_distinct; [apply sg_draws_ok|exact E|reflexivity|reflexivity].
Qed.
Example sg_hawks_run : exists rows, hawk_sample 4 sg_lh sg_mix = Some rows /\ length rows = 4.
Proof. destruct (hawk_sample_total 4 sg_lh sg_mix) as (rows & E); [apply sg_mix_ok|lia|]. exists rows. split; auto. eapply hawk_sample_ok; [apply sg_mix_ok|apply sg_draws_ok|exact E]. Qed.
Example sg_mut_draws : forall t i j : nat, (0 <= gm_u (nd_ga ((fun _ => sg_ga) t)) i j <= 1)%Q.
Proof. intros. simpl. lra. Qed.
Example sg_nga_run : exists r, sg_nga Mmin sg_mix 3 12 2 2 = Some r /\ length (nr_x r) = 2.
Proof.
  destruct (nga_total sg_net sg_train sg_predict rt_demo Mmin sg_fit sg_mix 3 12 2 rt_demo_ok ltac:(destruct sg_mix_ok as (_ & _ & F & _); eapply Forall_impl; [|exact F]; intros; simpl in *; lra)
    2 sg_lh sg_lh (fun k => k) (fun _ => sg_ga) (proj1 sg_draws_ok) sg_mut_draws ltac:(discriminate) ltac:(apply sg_mix_ok)) as (r & E); try (simpl; lia).
  exists r. split; [exact E|]. eapply nga_report; [exact rt_demo_ok| | | | | | |exact E]; try apply sg_draws_ok; try apply sg_mut_draws; try apply sg_mix_ok.
  destruct sg_mix_ok as (_ & _ & F & _); eapply Forall_impl; [|exact F]; intros; simpl in *; lra.
Qed.
(** The run is not trivial: the two reported individuals differ and come from mutation and
    crossover. *)
Example sg_nga_moves : option_map (fun r => (length (nr_evals r), match nr_trace r with s :: _ => length (ns_cands s) | [] => 0 end)) (sg_nga Mmin sg_mix 3 12 2 2) = Some (12, 12).
Proof. vm_compute. reflexivity. Qed.
Example sg_nhho_run : exists r, sg_nhho Mmin (Some 6) 3 2 = Some r /\ length (hx r) = 2.
Proof.
  destruct (nh_total sg_net sg_train sg_predict (fun _ => 1%Q) Mmin sg_fit sg_mix NearestInt ltac:(apply sg_mix_ok) ltac:(apply sg_mix_ok) 3 (2#10) (Some 6) 2 None sg_lh sg_lh (fun _ _ => sg_hd)) as (r & E); try apply sg_draws_ok; try exact I; try reflexivity; try lia.
  exists r. split; [exact E|]. eapply nh_report; [| | | | |exact E]; try apply sg_mix_ok; try apply sg_draws_ok. exact I.
Qed.
(** Dives do call the user's function during the evolution. *)
Example sg_nhho_dives : option_map (fun r => (h_warm r, Nat.ltb 6 (length (h_evals r)))) (sg_nhho Mmin (Some 6) 3 2) = Some (6, true).
Proof. vm_compute. reflexivity. Qed.

(** A surrogate fitted to scaled targets, with a constant fitness of 5: the value reported is not 5. *)
Example sg_units_run : exists r y, nh_evolute Q (nn_train fst_raw (fun _ => 1%Q) (2#10) (fun _ _ k => k)) fst_predict (fun _ => 1%Q) Mmin (fun _ => 5%Q) sg_mix NearestInt 3 (2#10) (Some 6) 1 None sg_lh sg_lh (fun _ _ => sg_hd) = Some r /\
  nth_error (hy r) 0 = Some y /\ ~ (y == 5)%Q.
Proof.
  destruct (nh_total Q (nn_train fst_raw (fun _ => 1%Q) (2#10) (fun _ _ k => k)) fst_predict (fun _ => 1%Q) Mmin (fun _ => 5%Q) sg_mix NearestInt ltac:(apply sg_mix_ok) ltac:(apply sg_mix_ok) 3 (2#10) (Some 6) 1 None sg_lh sg_lh (fun _ _ => sg_hd)) as (r & E); try apply sg_draws_ok; try exact I; try reflexivity; try lia.
  assert (L : length (hy r) = 1) by (eapply nh_report; [| | | | |exact E]; try apply sg_mix_ok; try apply sg_draws_ok; exact I).
  destruct (hy r) as [|y l] eqn:Ey; [discriminate|]. exists r, y. split; auto. split; [rewrite Ey; auto|].
  pose proof (reported_unit Q fst_raw fst_predict (fun _ => 1%Q) (2#10) (fun _ _ k => k) fst_ok _ Mmin _ _ _ _ _ _ _ _ _ _ r ltac:(apply sg_mix_ok) ltac:(apply sg_mix_ok) ltac:(apply sg_draws_ok) ltac:(apply sg_draws_ok) (I : good_hawks sg_mix 3 None) E 0 y) as K.
  rewrite Ey in K. specialize (K eq_refl). simpl in K. lra.
Qed.
