(** Concrete environments meeting the hypotheses of the theorems. *)
From Coq Require Import String List Arith ZArith QArith Bool Lia Lqa.
From Verif Require Import Base BaseFacts Space_Model Space_Spec Opt_Model Env_Model Env_Spec Env_Proofs Env_Disc Env_Episode.
Import ListNotations.
Open Scope nat_scope.

Definition dm_fit (x : list val) : Q := match x with VNum q :: _ => q | _ => 7%Q end.
Definition dm_set (l : list Z) : list Z := rev (nodup Z.eq_dec l).
Definition dm_obs (t : nat) : list Q := [2; 0]%Q.
Definition dm_act (t : nat) : action := ActBox [0]%Q.
Definition dm_randint (t : nat) (lo hi : Z) : Z := hi.

Definition dm_mixed : space := [("x1", PInt 1 4); ("x2", PGrid [VStr "a"; VStr "b"; VNum 5]); ("x3", PFloat (1 # 2) 2)]%string.
Definition dm_ints : space := [("x1", PInt 1 4); ("x2", PGrid [VStr "a"; VStr "b"])]%string.
Definition dm_cm : econf := EConf dm_mixed MAll Mmin 3.
Definition dm_ci : econf := EConf dm_ints MAll Mmax 3.
Definition dm_cd : econf := EConf dm_ints MOne Mmax 3.

Lemma dm_set_ok : set_listing dm_set.
Proof.
  intros l. unfold dm_set. split; [apply NoDup_rev, NoDup_nodup|]. intros z. rewrite <- in_rev, nodup_In. tauto.
Qed.
Lemma dm_rand_ok : randint_ok dm_randint.
Proof. intros t lo hi H. unfold dm_randint. lia. Qed.
Lemma dm_obs_ok : obs_ok dm_ints dm_obs.
Proof.
  intros t. unfold dm_obs, dm_ints, observable. constructor; [|constructor; [|constructor]].
  - unfold in_range; simpl. repeat split; try (vm_compute; discriminate). intros _. exists 2%Z. reflexivity.
  - unfold in_range; simpl. repeat split; try (vm_compute; discriminate). intros _. exists 0%Z. reflexivity.
Qed.
Lemma dm_mixed_wf : wf_space dm_mixed.
Proof.
  split.
  - unfold dict, dm_mixed. simpl. repeat constructor; simpl; intuition discriminate.
  - unfold dm_mixed. constructor; [|constructor; [|constructor; [|constructor]]]; simpl.
    + repeat split; [vm_compute; discriminate|exists 1%Z; reflexivity|exists 4%Z; reflexivity].
    + discriminate.
    + vm_compute; discriminate.
Qed.
Lemma dm_ints_wf : wf_space dm_ints.
Proof.
  split.
  - unfold dict, dm_ints. simpl. repeat constructor; simpl; intuition discriminate.
  - unfold dm_ints. constructor; [|constructor; [|constructor]]; simpl.
    + repeat split; [vm_compute; discriminate|exists 1%Z; reflexivity|exists 4%Z; reflexivity].
    + discriminate.
Qed.

Example dm_box : env_new dm_set dm_act dm_obs dm_cm = Some (ABox, EState [] 0 false 0 1). Proof. reflexivity. Qed.
Example dm_multi : env_new dm_set dm_act dm_obs dm_ci = Some (AMulti [[1; 2; 3; 4]; [0; 1]]%Z, EState [] 0 false 0 1).
Proof. vm_compute. reflexivity. Qed.
Example dm_one : env_new dm_set dm_act dm_obs dm_cd = Some (ADiscrete [1; 0; 4; 3; 2]%Z, EState [2; 0]%Q 0 false 0 1).
Proof. vm_compute. reflexivity. Qed.
Example dm_one_seq : exists st, ofold (env_op dm_fit dm_act dm_obs dm_randint dm_cd (ADiscrete [1; 0; 4; 3; 2]%Z)) (EState [2; 0]%Q 0 false 0 1)
    [OStep (ActOne 3); OStep (ActOne 0); OStep (ActOne 2); OReset; OStep (ActOne 1)] = Some st /\
    n_full st = [inject_Z 4; 0]%Q /\ n_index st = 1 /\ n_counter st = 1.
Proof. eexists. split; [vm_compute; reflexivity|]. split; [reflexivity|]. split; reflexivity. Qed.
Example dm_complete : complete 3 ([OReset] ++ map OStep [ActBox [0; 0; 0]%Q; ActBox [1; 0; 0]%Q; ActBox [1; 0; 2]%Q] ++ [OReset; OReset]).
Proof. apply (complete_more 3 [OReset] _ 2); [apply (complete_start 3 1)|reflexivity|lia]. Qed.
Example dm_individual : Forall2 (fun i z => nth_error [1; 0; 4; 3; 2]%Z i = Some z) [3; 0] [3; 1]%Z /\
  Forall2 (fun kp z => in_range (snd kp) (inject_Z z)) (ec_space dm_cd) [3; 1]%Z.
Proof.
  split; [repeat constructor|]. constructor; [|constructor; [|constructor]]; unfold in_range; simpl;
    (repeat split; try (vm_compute; discriminate); intros _; eexists; reflexivity).
Qed.

(** After a reset in the middle of an individual the next action sets the second coordinate. *)
Lemma dm_index : exists c vals st0 st r st',
  wf_space (ec_space c) /\ env_new dm_set dm_act dm_obs c = Some (ADiscrete vals, st0) /\
  ofold (env_op dm_fit dm_act dm_obs dm_randint c (ADiscrete vals)) st0 [OStep (ActOne 3); OReset] = Some st /\
  nth_error vals 2 = Some 4%Z /\ (forall kp, nth_error (ec_space c) 0 = Some kp -> in_range (snd kp) (inject_Z 4)) /\
  env_step dm_fit dm_obs dm_randint c (ADiscrete vals) st (ActOne 2) = Some (r, st') /\ nth_error (r_state r) 0 = Some 2%Q.
Proof.
  exists dm_cd, [1; 0; 4; 3; 2]%Z, (EState [2; 0]%Q 0 false 0 1). eexists _, _, _.
  split; [exact dm_ints_wf|]. split; [exact dm_one|]. split; [vm_compute; reflexivity|]. split; [reflexivity|]. split.
  - intros kp H. inversion H; subst. unfold in_range; simpl. repeat split; try (vm_compute; discriminate). intros _. exists 4%Z. reflexivity.
  - split; vm_compute; reflexivity.
Qed.

(** The observation returned by reset can lie outside the observation space. *)
Lemma dm_reset : exists c, wf_space (ec_space c) /\
  (forall set_order act_sample obs_sample, exists st0, env_new set_order act_sample obs_sample c = Some (ABox, st0) /\
     exists t st1, env_reset act_sample obs_sample c st0 = Some (ObsAction (act_sample t), st1)) /\
  (forall a, legal ABox (ActBox a) -> ~ observable (ec_space c) a).
Proof.
  exists (EConf [("x"%string, PFloat 2 3)] MAll Mmax 5). split; [|split].
  - split; [repeat constructor; simpl; tauto|]. repeat constructor. simpl. vm_compute. discriminate.
  - intros. eexists. split; [reflexivity|]. eexists _, _. reflexivity.
  - intros a HL HO. simpl in *. inversion HO as [|? q ? ? [H1 _] ? ]; subst. inversion HL as [|? ? [_ H2] _]; subst. simpl in H1. lra.
Qed.
