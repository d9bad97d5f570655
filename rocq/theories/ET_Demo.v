(** Non-trivial cases for the evolutionary and the Bayesian tuner. *)
From Coq Require Import String List Arith ZArith QArith Bool Lia Lqa Permutation.
From Verif Require Import Base Space_Model Space_Spec Opt_Model Opt_Spec ES_Model ES_Spec Tune_Model Tune_Spec ET_Model ET_Spec ET_Proofs ET_Bayes.
Import ListNotations.
Open Scope nat_scope.

(** An integer, a float and a grid of two strings. *)
Definition d_space : space := [("n"%string, PInt 1 5); ("lr"%string, PFloat 0 1); ("act"%string, PGrid [VStr "relu"; VStr "tanh"])].
Definition d_val (v : val) : Q := match v with VNum q => q | VStr "tanh" => 10%Q | VStr _ => 0%Q end.
Definition d_fit (c : list val) : Q := fold_right Qplus 0%Q (map d_val c).
Definition d_init : list (list Q * list Q) :=
  map (fun i => ([inject_Z (Z.of_nat (1 + i mod 5)); (Z.of_nat i # 10); inject_Z (Z.of_nat (i mod 2))], [1 # 4; 1 # 3; 1 # 2])%Q) (seq 0 10).
(** Crossover, mutation and reproduction in turn. *)
Definition d_draw (g i : nat) : odraw :=
  ODraw (Z.of_nat (i * 3) # 30)%Q (i + g) i i (2 * i) (fun _ => 1 # 2)%Q (fun _ => 1 # 3)%Q
    (MDraw (fun _ => 1 # 5)%Q (fun _ => - (1 # 3))%Q (fun _ => 1 # 10)%Q (fun j => Z.of_nat j # 3)%Q (fun j => j)).
Definition d_run := estune (fun q => 1 + q * q)%Q (fun _ => 1%Q) (fun _ => 1 # 2)%Q d_space Mmax d_fit d_draw d_init 2.

Example d_ok : dict d_space /\ wf_space d_space /\ start_ok d_space d_init /\ ~ In "score"%string (map fst d_space) /\ 2 <= length d_space.
Proof.
  split; [|split; [|split; [|split]]].
  - unfold dict, d_space. cbn [map fst]. repeat constructor; cbn; intuition discriminate.
  - unfold wf_space, d_space. repeat constructor; cbn [snd wf_param].
    + unfold Qle; cbn; lia.
    + exists 1%Z; reflexivity.
    + exists 5%Z; reflexivity.
    + unfold Qle; cbn; lia.
    + discriminate.
  - split; [reflexivity|]. rewrite Forall_forall. intros x Hx. apply in_map_iff in Hx. destruct Hx as (i & <- & Hi). apply in_seq in Hi.
    do 10 (destruct i as [|i]; [unfold good_pair, feasible, strat_ok; cbn; repeat (constructor || split); try (unfold Qle; cbn; lia);
      try (intros _; first [exists 0%Z; reflexivity|exists 1%Z; reflexivity|exists 2%Z; reflexivity|exists 3%Z; reflexivity|exists 4%Z; reflexivity|exists 5%Z; reflexivity]); try discriminate|]).
    lia.
  - cbn. intuition discriminate.
  - cbn. lia.
Qed.
(** The run returns; the last column holds numbers although the cases have strings. *)
Example d_runs : exists r x s, d_run = Some r /\ nth_error (et_rows r) 1 = Some x /\ nth_error (et_scores r) 1 = Some s /\
  option_map (fun v => Qeq_bool v 1) (nth_error x 2) = Some true /\ case_of d_space x [VNum (nth 0 x 0%Q); VNum (nth 1 x 0%Q); VStr "tanh"] /\ (10 < s)%Q.
Proof.
  destruct d_run as [r|] eqn:E; [|vm_compute in E; discriminate].
  assert (E2 : Some r = d_run) by congruence.
  destruct (nth_error (et_rows r) 1) as [x|] eqn:Ex; [|rewrite <- E in *; vm_compute in E; injection E as <-; discriminate].
  destruct (nth_error (et_scores r) 1) as [s|] eqn:Es; [|vm_compute in E; injection E as <-; discriminate].
  exists r, x, s. split; [auto|]. vm_compute in E. injection E as <-. cbn in Ex, Es. injection Ex as <-. injection Es as <-.
  split; [reflexivity|]. split; [reflexivity|]. split; [reflexivity|]. split.
  - split; [reflexivity|]. split; [reflexivity|]. intros j k p q v Hb Hx Hv. destruct j as [|[|[|j]]]; cbn in *; try (destruct j; discriminate).
    + injection Hb as <- <-. injection Hx as <-. injection Hv as <-. reflexivity.
    + injection Hb as <- <-. injection Hx as <-. injection Hv as <-. reflexivity.
    + injection Hb as <- <-. injection Hx as <-. injection Hv as <-. exists 1. split; reflexivity.
  - reflexivity.
Qed.

(** The first ten cases are not in the table: here one of them is better than every row. *)
Definition w_draw (g i : nat) : odraw :=
  ODraw 1%Q 0 0 0 0 (fun _ => 0%Q) (fun _ => 0%Q) (MDraw (fun _ => 0%Q) (fun _ => 0%Q) (fun _ => 0%Q) (fun _ => 0%Q) (fun _ => 0)).
Lemma first_lost expf tau tau' : exists drs r z c, start_ok d_space d_init /\ estune expf tau tau' d_space Mmax d_fit drs d_init 2 = Some r /\ length (et_rows r) = 2 /\
  In z (et_init r) /\ case_of d_space z c /\ forall s, In s (et_scores r) -> (s < d_fit c)%Q.
Proof.
  exists w_draw. do 3 eexists. split; [exact (proj1 (proj2 (proj2 d_ok)))|]. split; [vm_compute; reflexivity|]. split; [reflexivity|].
  split; [right; left; reflexivity|]. split.
  - instantiate (1 := [VNum 2; VNum (1 # 10); VStr "tanh"]). split; [reflexivity|]. split; [reflexivity|]. intros j k p q v Hb Hx Hv.
    destruct j as [|[|[|j]]]; cbn in *; try (destruct j; discriminate); injection Hb as <- <-; injection Hx as <-; injection Hv as <-; [reflexivity|reflexivity|].
    exists 1. split; reflexivity.
  - cbn. intros s [<-|[<-|[]]]; reflexivity.
Qed.

(** Bayesian tuning: arguments in another order than the dictionary. *)
Definition by_g : list (string * rtype) := [("y"%string, RInt 5 6); ("x"%string, RInt 1 2)].
Definition by_f : func := Func ["x"%string; "y"%string] [] (fun vs => match vs with [VNum a; VNum b] => Some (a - b)%Q | _ => None end).
Definition by_s (s : option nat) (f : list val -> option Q) (n : nat) : list (list val) := repeat [VNum 6; VNum 1] n.
Example by_s_ok : search_ok by_s by_g.
Proof.
  intros s f n. unfold by_s. split; [apply repeat_length|]. rewrite Forall_forall. intros x Hx. apply repeat_spec in Hx. subst.
  repeat constructor; cbn [snd allowed].
  - exists 6%Q. repeat split; try (unfold Qle; cbn; lia). exists 6%Z. reflexivity.
  - exists 1%Q. repeat split; try (unfold Qle; cbn; lia). exists 1%Z. reflexivity.
Qed.
Lemma swapped : exists search g f ys xs x y q, search_ok search g /\ NoDup (map fst g) /\ Permutation (map fst g) (f_args f) /\
  bayestune search g f Mmin 11 None 1 = Some (xs, ys) /\ nth_error xs 0 = Some x /\ nth_error ys 0 = Some y /\ f_body f x = Some q /\ ~ (y == q)%Q /\
  (forall v, dget (combine (f_args f) x) "x" = Some v -> ~ allowed (RInt 1 2) v) /\ dget g "x" = Some (RInt 1 2).
Proof.
  exists by_s, by_g, by_f. do 2 eexists. exists [VNum 6; VNum 1], (1 - 6)%Q, (6 - 1)%Q. split; [exact by_s_ok|].
  split; [cbn; repeat constructor; cbn; intuition discriminate|]. split; [cbn; apply perm_swap|]. split; [vm_compute; reflexivity|].
  split; [reflexivity|]. split; [reflexivity|]. split; [reflexivity|]. split; [intros H; discriminate H|]. split; [|reflexivity].
  cbn. intros v Hv. injection Hv as <-. intros (q & E & _ & _ & H). injection E as <-. unfold Qle in H. cbn in H. lia.
Qed.
Example by_max : match bayestune by_s [("x"%string, RInt 5 6); ("y"%string, RInt 1 2)] by_f Mmax 3 (Some 7) 2 with
  | Some (xs, ys) => length xs = 22 /\ Forall (fun y => (y == 5)%Q) ys | None => False end.
Proof. vm_compute. split; [reflexivity|]. repeat constructor. Qed.

(** One hyperparameter, and a draw that asks for a crossover. *)
Example d_one : wf_space [("n"%string, PInt 1 5)] /\ start_ok [("n"%string, PInt 1 5)] (repeat ([2%Q], [1 # 4]%Q) 10) /\ (od_rn (d_draw 0 3) < 7 # 10)%Q.
Proof.
  split; [|split; [|reflexivity]].
  - repeat constructor; cbn [snd wf_param]; try (unfold Qle; cbn; lia); [exists 1%Z|exists 5%Z]; reflexivity.
  - split; [reflexivity|]. rewrite Forall_forall. intros x Hx. apply repeat_spec in Hx. subst.
    unfold good_pair, feasible, strat_ok. cbn. repeat (constructor || split); try (unfold Qle; cbn; lia); try discriminate. intros _. exists 2%Z. reflexivity.
Qed.
(** A fitness with an argument that has a default value; one that raises. *)
Example by_default_demo : ~ Permutation (map fst by_g) (f_args (Func ["x"%string; "y"%string; "verbose"%string] [("verbose"%string, VNum 0)] (fun _ => Some 1%Q))).
Proof. intros P. apply Permutation_length in P. discriminate P. Qed.
Example by_failure_demo : In None (seeds_of None 1) /\ let f := Func ["x"%string; "y"%string] [] (fun _ => None) in
  In [VNum 6; VNum 1] (by_s None (by_objective Mmin by_g f) (Nat.max 11 11)) /\ call_named f (combine (map fst by_g) [VNum 6; VNum 1]) = None.
Proof. split; [left; reflexivity|]. split; [left; reflexivity|reflexivity]. Qed.
