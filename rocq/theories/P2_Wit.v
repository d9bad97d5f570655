(** The PESA2 theorems in their final form, and the witnesses. *)
From Coq Require Import List Arith ZArith QArith Bool Lia Lqa.
From Verif Require Import Base BaseFacts Space_Model Space_Spec ER_Model Opt_Model Opt_Spec Opt_Facts2 Pop_Model Pop_Spec
  P2_Model P2_Spec P2_Proofs P2_Final P2_Demo.
Import ListNotations.
Open Scope nat_scope.

Section F.
Context (expf cosf : Q -> Q) (pwf : Q -> Q -> Q) (m : mode) (fit : list Q -> Q) (p : p2_par).
Context (ngen re : nat) (xs : list (list Q)) (attr : option nat) (drs : nat -> p2_draw) (r : p2_result).
Local Notation run := (p2_evolute expf cosf pwf m fit p attr ngen re drs xs).

Lemma p2_report : p2_ready p ngen re xs -> respects fit -> no_sharing_trouble p -> run = Some r ->
  point_in (pq_x r) (pq_seen r) /\ point_in (pq_x r) (offered xs (pq_pops r) (ngen / re)) /\ (pq_y r == fit (pq_x r))%Q /\
  length (pq_hist r) = ngen / re /\ nth_error (pq_hist r) (ngen / re - 1) = Some (pq_y r) /\
  length (pq_pops r) = ngen / re /\
  (forall pop, In pop (pq_pops r) -> length pop = p2_nwolves p + p2_npop p + p2_nwhales p /\
     forall x v, In (x, v) pop -> feasible (p2_dims p) x /\ (v == as_max m (fit x))%Q /\ point_in x (pq_seen r)) /\
  (forall i v, nth_error (pq_hist r) i = Some v -> exists z, In z (offered xs (pq_pops r) (S i)) /\ (v == fit z)%Q).
Proof. intros RD Rf Sh E. pose proof (p2_best expf cosf pwf m fit p ngen re xs attr drs RD r Rf Sh E). tauto. Qed.

Lemma p2_best_of_all : p2_ready p ngen re xs -> respects fit -> no_sharing_trouble p -> run = Some r ->
  nothing_dropped p (p2_size attr (ngen / re * p2_npop p)) (length xs) (ngen / re) ->
  (forall i v, nth_error (pq_hist r) i = Some v ->
     (exists z, In z (offered xs (pq_pops r) (S i)) /\ (v == fit z)%Q) /\
     forall z, In z (offered xs (pq_pops r) (S i)) -> as_good m v (fit z)) /\
  never_worse m (pq_hist r) /\
  (forall z, In z (offered xs (pq_pops r) (ngen / re)) -> as_good m (pq_y r) (fit z)).
Proof.
  intros RD Rf Sh E Nd. destruct (p2_best expf cosf pwf m fit p ngen re xs attr drs RD r Rf Sh E) as (_ & _ & _ & Lh & _ & _ & _ & H1 & H2 & _).
  split; [|apply (p2_mono expf cosf pwf m fit p ngen re xs attr drs RD r Rf Sh E Nd)].
  intros i v Hv. split; [eauto|]. apply (H2 i v Hv). apply (nothing_mono p xs _ (S i) (ngen / re)); auto.
  assert (i < length (pq_hist r)) by (apply nth_error_Some; congruence). lia.
Qed.

Lemma p2_alphas : p2_ready p ngen re xs -> respects fit -> no_sharing_trouble p -> run = Some r -> (p2_alpha0 p < p2_alpha1 p)%Q ->
  length (pq_alphas r) = ngen / re /\ nth_error (pq_alphas r) 0 = Some (p2_alpha0 p) /\
  (forall i a, nth_error (pq_alphas r) i = Some a -> (p2_alpha0 p <= a)%Q /\ (a < p2_alpha1 p)%Q) /\
  (forall i j a b, i <= j -> nth_error (pq_alphas r) i = Some a -> nth_error (pq_alphas r) j = Some b -> (a <= b)%Q).
Proof.
  intros RD Rf Sh E Ha. destruct (p2_best expf cosf pwf m fit p ngen re xs attr drs RD r Rf Sh E) as (_ & _ & _ & _ & _ & _ & _ & _ & _ & Ea & _).
  pose proof (gens_at_least_one p ngen re xs RD) as G.
  assert (Nth : forall i a, nth_error (pq_alphas r) i = Some a -> i < ngen / re /\ a = alpha_at p ngen re i).
  { intros i a H. rewrite Ea in H. assert (L : i < ngen / re). { rewrite <- (seq_length (ngen / re) 0), <- (map_length (alpha_at p ngen re)). apply nth_error_Some. congruence. }
    split; auto. apply nth_map_some in H. destruct H as (k & Hk & ->). f_equal. apply (nth_error_nth _ _ 0) in Hk. rewrite seq_nth in Hk by auto. lia. }
  split; [rewrite Ea, map_length, seq_length; auto|]. split.
  { rewrite Ea. destruct (ngen / re) as [|k]; [lia|]. reflexivity. }
  split.
  - intros i a H. destruct (Nth i a H) as (L & ->). apply (alphas_range p ngen re xs RD i L Ha).
  - intros i j a b Hij H1 H2. destruct (Nth i a H1) as (L1 & ->). destruct (Nth j b H2) as (L2 & ->). apply (alphas_mono p ngen re xs RD i j Hij L2 Ha).
Qed.

Lemma p2_no_replay : ngen < re -> run = None.
Proof.
  intros H. unfold p2_evolute. destruct (p2_start m fit p attr ngen re xs) as [st|] eqn:E; [|reflexivity]. cbn [bind]. rewrite Nat.div_small by auto. cbn [gens bind].
  unfold p2_start in E. destruct (_ && _); [|discriminate]. unfold h_new in E. destruct (p2_add _ _ _ _); [|discriminate]. cbn [bind] in E. inversion E. reflexivity.
Qed.
End F.

Lemma p2_idle expf cosf pwf m fit p ngen xs attr drs r : p2_ready p ngen 1 xs ->
  respects fit -> no_sharing_trouble p -> p2_npop p < 2 * p2_nwolves p ->
  p2_evolute expf cosf pwf m fit p attr ngen 1 drs xs = Some r ->
  forall i pop, nth_error (pq_pops r) i = Some pop ->
    forall x v, In (x, v) (firstn (p2_nwolves p) pop) -> point_in x (offered xs (pq_pops r) i).
Proof.
  intros RD Rf Sh Hn E. destruct (p2_best expf cosf pwf m fit p ngen 1 xs attr drs RD r Rf Sh E) as (_ & _ & _ & _ & _ & _ & _ & _ & _ & _ & H).
  apply H. unfold p2_gens. assert (L : p2_npop p / p2_nwolves p < 2) by (apply Nat.div_lt_upper_bound; lia). lia.
Qed.

Lemma w_idle : p2_ready (q_par NearestInt 4 5 5 (2#5) false) 2 1 q_xs /\ 5 < 2 * 5.
Proof. split; [apply q_idle|lia]. Qed.

Lemma map_some {A B} (f : A -> B) o b : option_map f o = Some b -> exists a, o = Some a /\ b = f a.
Proof. destruct o; simpl; intros H; [|discriminate]. inversion H. eauto. Qed.

Lemma ni_ok mt hi n k R b : mt = NearestInt -> no_sharing_trouble (q_par mt hi n k R b).
Proof. intros ->. right. left. reflexivity. Qed.

Lemma w_shared : exists p xs drs r, p2_ready p 2 1 xs /\ respects id_fit /\
  p2_evolute z1 z1 z2 Mmax id_fit p None 2 1 drs xs = Some r /\ ~ (pq_y r == id_fit (pq_x r))%Q.
Proof.
  destruct q_shared as (RD & E). apply map_some in E. destruct E as (r & E & Er).
  exists (q_par MinMax 4 5 5 (2#5) false), q_xs, (q_draw false), r. split; [exact RD|]. split; [apply id_respects|]. split; [exact E|].
  injection Er as Ex Ey _ _. rewrite <- Ex, <- Ey. discriminate.
Qed.

Lemma w_small : exists p xs drs r z, p2_ready p 4 1 xs /\ respects (hit_fit 3) /\ no_sharing_trouble p /\
  p2_evolute z1 z1 z2 Mmax (hit_fit 3) p (Some 5) 4 1 drs xs = Some r /\
  In z xs /\ (pq_y r < hit_fit 3 z)%Q /\ ~ never_worse Mmax (pq_hist r).
Proof.
  destruct q_small as (RD & E). apply map_some in E. destruct E as (r & E & Er).
  exists (q_par NearestInt 4 5 2 1 false), q_xs, (q_draw false), r, [3%Q]. split; [exact RD|]. split; [apply hit_respects|]. split; [apply ni_ok; auto|]. split; [exact E|].
  injection Er as Ex Ey Eh _. split; [simpl; auto 10|]. rewrite <- Ey. split; [reflexivity|].
  intros H. specialize (H 2 3 1%Q 0%Q). rewrite <- Eh in H. specialize (H ltac:(lia) eq_refl eq_refl). cbn [as_good] in H. lra.
Qed.

Lemma w_default : exists p xs drs r z, p2_ready p 2 1 xs /\ respects (hit_fit 0) /\ no_sharing_trouble p /\
  p2_size None (2 / 1 * p2_npop p) < length xs /\
  p2_evolute z1 z1 z2 Mmax (hit_fit 0) p None 2 1 drs xs = Some r /\ In z xs /\ (pq_y r < hit_fit 0 z)%Q.
Proof.
  destruct q_default as (RD & E). apply map_some in E. destruct E as (r & E & Er).
  exists (q_par NearestInt 40 5 2 0 false), q_big, (q_draw false), r, [0%Q]. split; [exact RD|]. split; [apply hit_respects|]. split; [apply ni_ok; auto|].
  split; [vm_compute; lia|]. split; [exact E|]. injection Er as Ey _. split; [left; reflexivity|]. rewrite <- Ey. reflexivity.
Qed.

Lemma w_second : exists p xs1 xs2 drs a b c, p2_ready p 2 1 xs1 /\ p2_ready p 4 1 xs2 /\ respects (hit_fit 3) /\ no_sharing_trouble p /\
  p2_twice z1 z1 z2 Mmax (hit_fit 3) p None 2 1 drs xs1 4 1 drs xs2 = Some (a, b) /\
  p2_evolute z1 z1 z2 Mmax (hit_fit 3) p None 4 1 drs xs2 = Some c /\ (pq_y b < pq_y c)%Q /\ ~ never_worse Mmax (pq_hist b).
Proof.
  destruct q_second as (R1 & R2 & E & E2). apply map_some in E. destruct E as ((a & b) & E & Er). apply map_some in E2. destruct E2 as (c & E2 & Ec).
  exists (q_par NearestInt 4 5 2 1 false), (repeat [0%Q] 6), q_xs, (q_draw false), a, b, c.
  split; [exact R1|]. split; [exact R2|]. split; [apply hit_respects|]. split; [apply ni_ok; auto|]. split; [exact E|]. split; [exact E2|].
  cbn [fst snd] in Er. injection Er as _ Ey Eh. rewrite <- Ey, <- Ec. split; [reflexivity|].
  intros H. specialize (H 0 1 1%Q 0%Q). rewrite <- Eh in H. specialize (H ltac:(lia) eq_refl eq_refl). cbn [as_good] in H. lra.
Qed.

Lemma w_lost : exists p xs drs r z, p2_ready p 2 1 xs /\ respects (hit_fit 4) /\ no_sharing_trouble p /\
  nothing_dropped p (p2_size None (2 / 1 * p2_npop p)) (length xs) (2 / 1) /\
  p2_evolute z1 z1 z2 Mmax (hit_fit 4) p None 2 1 drs xs = Some r /\ In z (pq_seen r) /\ (pq_y r < hit_fit 4 z)%Q.
Proof.
  destruct q_lost as (RD & Nd & E). apply map_some in E. destruct E as (r & E & Er). injection Er as Ey Ez. symmetry in Ez. apply existsb_exists in Ez.
  destruct Ez as (z & Hz & Ez). exists (q_par NearestInt 40 6 2 (1#2) false), q_far, (q_draw true), r, z.
  split; [exact RD|]. split; [apply hit_respects|]. split; [apply ni_ok; auto|]. split; [exact Nd|]. split; [exact E|]. split; [exact Hz|]. rewrite <- Ey.
  destruct z as [|q [|? ?]]; [discriminate Ez| |discriminate Ez]. cbn [hit_fit]. rewrite Ez. reflexivity.
Qed.
