(** Instances for the theorems about FNEAT and RNEAT (C79). *)
From Coq Require Import String List Arith ZArith QArith Qround Bool Lia.
From Verif Require Import Base Space_Model Space_Spec Opt_Model Opt_Spec Env_Model Env_Spec NE_Model NE_Spec.
Import ListNotations.
Open Scope nat_scope.

(** One float in [0,10]; the fitness is the coordinate; episodes of two individuals. *)
Definition e_conf : econf := EConf [("x"%string, PFloat 0 10)] MAll Mmax 2.
Definition e_fit (x : list val) : Q := match x with VNum q :: _ => q | _ => 0%Q end.
Definition e_act (_ : nat) : action := ActBox [0%Q].
Definition e_obs (_ : nat) : list Q := [0%Q].
Definition e_int (_ : nat) (lo _ : Z) : Z := lo.
Definition e_new (g : nat) : nat := g.
(** Network g answers 1 to the observation 0 and -1 otherwise. *)
Definition e_net (g : nat) (ob : list Q) : nat * list Q := (g, [match ob with q :: _ => if Qeq_bool q 0 then 1%Q else (-1)%Q | [] => 0%Q end]).
(** Two generations of two genomes. *)
Definition e_lib (past : list (list Q)) : option (list nat) := Some [List.length past; 10 + List.length past].
Definition e_start : estate := EState [] 0 false 0 1.
Example demo_new : env_new (fun l => l) e_act e_obs e_conf = Some (ABox, e_start). Proof. reflexivity. Qed.
Lemma demo_wf : wf_space (ec_space e_conf).
Proof. split; [repeat constructor; cbn; intuition discriminate|]. constructor; [cbn; discriminate|constructor]. Qed.

Ltac run_neat := match goal with |- exists a b c d e f g, ?t = _ /\ _ => let r := eval vm_compute in t in match r with Some (?a, ?b, ?c, ?d, ?e, ?f, ?g) => exists a, b, c, d, e, f, g; split; [vm_compute; reflexivity|] end end.
Example demo_serial : exists x y gl lo fits st' log, neat_evolute e_new e_net e_lib e_fit e_act e_obs e_int e_conf ABox None false 5 2 e_start = Some (x, y, gl, lo, fits, st', log) /\
  (y == 10)%Q /\ List.length (concat fits) = 4 /\ List.length log = 8 /\ List.length lo = 4.
Proof. run_neat. repeat split; reflexivity. Qed.
Example demo_x0 : exists x y gl lo fits st' log, neat_evolute e_new e_net e_lib e_fit e_act e_obs e_int e_conf ABox (Some [0%Q]) false 5 2 e_start = Some (x, y, gl, lo, fits, st', log) /\
  List.length (concat fits) = 4 /\ List.length log = 5 /\ n_done st' = true.
Proof. run_neat. repeat split; reflexivity. Qed.
Theorem parallel_misses : exists x y gl lo fits st' log, neat_evolute e_new e_net e_lib e_fit e_act e_obs e_int e_conf ABox (Some [0%Q]) true 5 2 e_start = Some (x, y, gl, lo, fits, st', log) /\
  (exists z, In z log /\ (y < e_fit z)%Q) /\ (exists a b, nth_error gl 0 = Some a /\ nth_error lo 0 = Some b /\ (a < b)%Q).
Proof.
  run_neat. split.
  - eexists. split; [left; reflexivity|]. vm_compute. reflexivity.
  - do 2 eexists. split; [reflexivity|]. split; [reflexivity|]. vm_compute. reflexivity.
Qed.
Lemma demo_out n ob : List.length (snd (e_net n ob)) = List.length (ec_space e_conf). Proof. reflexivity. Qed.

(** An integer space with a network whose outputs lie strictly between 0 and 1. *)
Definition i_conf : econf := EConf [("x"%string, PInt 0 10)] MAll Mmin 2.
Definition i_net (g : nat) (_ : list Q) : nat * list Q := (g, [1#2]).
Example demo_multi : exists maps st, env_new (fun l => l) (fun _ => ActMulti [3]) e_obs i_conf = Some (AMulti maps, st). Proof. do 2 eexists. vm_compute. reflexivity. Qed.
Lemma demo_half g ob : exists q, In q (snd (i_net g ob)) /\ ~ is_int q.
Proof. exists (1#2). split; [left; reflexivity|]. intros (z & E). unfold Qeq in E. cbn in E. lia. Qed.

Lemma F2_nth {A B} (R : A -> B -> Prop) l l' : Forall2 R l l' -> forall k a b, nth_error l k = Some a -> nth_error l' k = Some b -> R a b.
Proof. induction 1 as [|x y l l' H1 H2 IH]; intros [|k] a b Ha Hb; try discriminate; cbn in Ha, Hb; [congruence|eauto]. Qed.
Theorem parallel_refuted : ~ (forall (G N : Type) (net_new : G -> N) activate lib fit set_order act_sample obs_sample randint c sp x0 fuel ngen st x y gl lo fits st' log,
  wf_space (ec_space c) -> 1 <= ec_len c -> env_new set_order act_sample obs_sample c = Some (sp, st) ->
  neat_evolute net_new activate lib fit act_sample obs_sample randint c sp x0 true fuel ngen st = Some (x, y, gl, lo, fits, st', log) ->
  (forall z, In z log -> as_good (ec_mode c) y (fit z)) \/ Forall2 (as_good (ec_mode c)) gl lo).
Proof.
  intros H. destruct parallel_misses as (x & y & gl & lo & fits & st' & log & E & (z & Z1 & Z2) & a & b & A1 & A2 & A3).
  assert (L : 1 <= ec_len e_conf) by (cbn; lia).
  destruct (H _ _ _ _ _ _ _ _ _ _ _ _ _ _ _ _ _ _ _ _ _ _ _ demo_wf L demo_new E) as [K|K].
  - specialize (K z Z1). cbn in K. apply (Qlt_not_le _ _ Z2). exact K.
  - pose proof (F2_nth _ _ _ K _ _ _ A1 A2) as K1. cbn in K1. apply (Qlt_not_le _ _ A3). exact K1.
Qed.
Theorem x0_refuted : ~ (forall (G N : Type) (net_new : G -> N) activate lib fit set_order act_sample obs_sample randint c sp x0 fuel ngen st x y gl lo fits st' log,
  wf_space (ec_space c) -> 1 <= ec_len c -> env_new set_order act_sample obs_sample c = Some (sp, st) ->
  neat_evolute net_new activate lib fit act_sample obs_sample randint c sp (Some x0) false fuel ngen st = Some (x, y, gl, lo, fits, st', log) ->
  List.length log = ec_len c * List.length (concat fits)).
Proof.
  intros H. destruct demo_x0 as (x & y & gl & lo & fits & st' & log & E & E1 & E2 & _). assert (L : 1 <= ec_len e_conf) by (cbn; lia).
  specialize (H _ _ _ _ _ _ _ _ _ _ _ _ _ _ _ _ _ _ _ _ _ _ _ demo_wf L demo_new E). rewrite E1, E2 in H. discriminate H.
Qed.
