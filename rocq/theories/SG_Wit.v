(** Orders a Latin hypercube can take, defaults, and counterexamples. *)
From Coq Require Import List Arith ZArith QArith Qabs Qround Bool Lia Lqa Permutation.
From Verif Require Import Base BaseFacts Space_Model Space_Spec Space_Facts Opt_Model Opt_Spec Opt_Facts Opt_Facts2
  Pop_Model Pop_Spec Pop_Proofs Swarm_Model Swarm_Proofs HHO_Model HHO_Proofs P2_Model SG_Model SG_Spec SG_Latin SG_GA SG_NGA SG_NHHO.
Import ListNotations.
Open Scope nat_scope.

(* ---------- every order of the strata can occur ---------- *)
Fixpoint index_of (x : nat) (l : list nat) : nat := match l with [] => 0 | y :: r => if x =? y then 0 else S (index_of x r) end.
Fixpoint draws_for (l l' : list nat) : list nat :=
  match l' with [] => [] | x :: r => index_of x l :: draws_for (remove_at l (index_of x l)) r end.
Lemma index_of_nth x l : In x l -> nth_error l (index_of x l) = Some x /\ index_of x l < length l.
Proof.
  induction l as [|y r IH]; simpl; [tauto|]. intros H. destruct (Nat.eqb_spec x y) as [->|Ne]; [split; simpl; auto; lia|].
  destruct H as [H|H]; [congruence|]. destruct (IH H). split; auto. lia.
Qed.
Lemma draws_for_ok l' : forall l, Permutation l l' -> length (draws_for l l') = length l /\ Opt_Model.sample l (draws_for l l') = Some l'.
Proof.
  induction l' as [|x r IH]; intros l P; simpl.
  - apply Permutation_sym, Permutation_nil in P. subst. auto.
  - assert (Hx : In x l) by (eapply Permutation_in; [apply Permutation_sym; exact P|left; auto]). destruct (index_of_nth x l Hx) as (E & L).
    rewrite Nat.mod_small by auto. rewrite E. pose proof (remove_at_perm _ _ _ E) as P2.
    assert (P3 : Permutation (remove_at l (index_of x l)) r). { apply (Permutation_cons_inv (a := x)). eapply perm_trans; [apply Permutation_sym; exact P2|exact P]. }
    destruct (IH _ P3) as (L1 & ->). split; auto. rewrite L1, remove_at_length by auto. lia.
Qed.
Lemma sample_map {A B} (f : A -> B) draws : forall l, Opt_Model.sample (map f l) draws = option_map (map f) (Opt_Model.sample l draws).
Proof.
  induction draws as [|d ds IH]; intros l; cbn [Opt_Model.sample]; auto. rewrite map_length, nth_error_map. destruct (nth_error l _) as [x|] eqn:E; cbn [option_map]; auto.
  assert (Rm : forall l k, remove_at (map f l) k = map f (remove_at l k)) by (clear; induction l; intros [|k]; simpl; auto; f_equal; auto).
  rewrite Rm, IH. destruct (Opt_Model.sample _ ds); auto.
Qed.
Lemma map_nth_seq (l : list nat) : map (fun k => nth k l 0) (seq 0 (length l)) = l.
Proof.
  induction l as [|a l IH]; simpl; auto. f_equal. rewrite <- seq_shift, map_map. auto.
Qed.
Lemma shuffle_any {A} (f : nat -> A) N perm : Permutation (seq 0 N) perm -> shuffle (fun k => nth k (draws_for (seq 0 N) perm) 0) (map f (seq 0 N)) = map f perm.
Proof.
  intros P. destruct (draws_for_ok perm _ P) as (L & E). unfold shuffle. rewrite map_length, <- L, map_nth_seq, sample_map, E. reflexivity.
Qed.

Lemma latin_any_order N u ds perm : 1 <= N -> Forall (fun d => (d_lo d < d_hi d)%Q) ds -> unit_draws u -> (forall c : nat, Permutation (seq 0 N) (perm c)) ->
  exists sh rows, latin N u sh ds = Some rows /\
    forall k r c d j, nth_error rows k = Some r -> nth_error ds c = Some d -> nth_error (perm c) k = Some j ->
      exists x, nth_error r c = Some x /\ stratum (d_lo d) (d_hi d) N j x.
Proof.
  intros HN F U P. set (sh := fun c k => nth k (draws_for (seq 0 N) (perm c)) 0). exists sh.
  destruct (latin_total N u sh ds HN) as (rows & E). { eapply Forall_impl; [|exact F]. intros; simpl in *; lra. }
  exists rows. split; auto. apply latin_rows in E. destruct E as (_ & _ & _ & _ & C). intros k r c d j Er Ed Ej.
  destruct (C c d Ed k r Er) as (x & X1 & X2). exists x. split; auto. unfold lh_column in X2. unfold sh in X2. rewrite (shuffle_any _ N (perm c) (P c)) in X2.
  rewrite map_map, nth_error_map, Ej in X2. cbn [option_map] in X2. inversion X2 as [X3]. change (stratum (d_lo d) (d_hi d) N j (lh_pt N (u c) d j)).
  rewrite Forall_forall in F. pose proof (F d (nth_error_In _ _ Ed)) as Hd. cbv beta in Hd.
  destruct (lh_pt_stratum N (u c) d j HN ltac:(lra) (U c j)) as (S1 & S2). split; [exact S1|exact (S2 Hd)].
Qed.

(* ---------- rounding favours the inner values ---------- *)
Lemma py_round_is q z : (inject_Z z - (1#2) < q)%Q -> (q < inject_Z z + (1#2))%Q -> py_round q = z.
Proof.
  intros A B. pose proof (py_round_near q) as (N1 & N2). set (w := py_round q) in *. clearbody w.
  assert (K1 : (inject_Z z < inject_Z (w + 1))%Q) by (rewrite inject_Z_plus; change (inject_Z 1) with 1%Q; lra).
  assert (K2 : (inject_Z w < inject_Z (z + 1))%Q) by (rewrite inject_Z_plus; change (inject_Z 1) with 1%Q; lra).
  rewrite <- Zlt_Qlt in K1, K2. lia.
Qed.
Definition int02 : dimn := {| d_int := true; d_lo := 0; d_hi := 2 |}.
Lemma uneven u sh rows : (forall i j, 0 < u i j < 1)%Q -> hawk_sample 4 (LhDraw u sh) [int02] = Some rows ->
  Permutation rows [[0]; [1]; [1]; [2]]%Q.
Proof.
  intros U H. unfold hawk_sample in H. cbn [lh_u lh_sh] in H. apply bind_Some in H. destruct H as (l & E & H). apply (f_equal (fun o => match o with Some x => x | None => [] end)) in H. cbv beta iota in H. subst rows.
  unfold latin in E. cbn [Nat.eqb orb existsb] in E. destruct (Qltb (d_hi int02) (d_lo int02)) eqn:E1; [discriminate|]. cbn [orb] in E. apply (f_equal (fun o => match o with Some x => x | None => [] end)) in E. cbv beta iota in E. subst l. clear E1.
  rewrite map_map. cbn [lh_columns map nth map2 d_int int02].
  pose proof (lh_column_perm 4 (u 0) (sh 0) int02) as P. pose proof (lh_column_length 4 (u 0) (sh 0) int02) as L.
  set (col := lh_column 4 (u 0) (sh 0) int02) in *. clearbody col.
  assert (E : map (fun x : nat => [inject_Z (py_round (nth x col 0%Q))]) (seq 0 4) = map (fun q => [inject_Z (py_round q)]) col).
  { destruct col as [|a [|b [|c [|d [|e col]]]]]; simpl in L; try discriminate. reflexivity. }
  change (map _ (seq 0 4)) with (map (fun x : nat => [inject_Z (py_round (nth x col 0%Q))]) (seq 0 4)). rewrite E.
  eapply perm_trans; [apply Permutation_map; exact P|]. cbn [map seq].
  assert (K : forall j z, (inject_Z z - (1#2) <= qnat j * (1#2))%Q -> (qnat j * (1#2) <= inject_Z z)%Q -> py_round (lh_pt 4 (u 0) int02 j) = z).
  { intros j z A B. assert (Ept : (lh_pt 4%nat (u 0%nat) int02 j == qnat j * (1#2) + u 0%nat j * (1#2))%Q) by (unfold lh_pt; change (qnat 4) with 4%Q; cbn [d_hi d_lo int02]; field).
    destruct (U 0%nat j). apply py_round_is; rewrite Ept; lra. }
  rewrite (K 0 0%Z), (K 1 1%Z), (K 2 1%Z), (K 3 2%Z) by (vm_compute; discriminate). apply Permutation_refl.
Qed.

(* ---------- defaults ---------- *)
Lemma sqrt_hidden w : 12 <= w -> 2 <= nga_hidden w None /\ nga_hidden w None <= w / 3.
Proof.
  intros H. unfold nga_hidden. assert (4 <= w / 3) by (apply (Nat.div_le_lower_bound w 3 4); lia).
  split; [apply (Nat.sqrt_le_mono 4); auto|]. apply Nat.sqrt_le_lin.
Qed.
Lemma sqrt_small w : w < 12 -> nga_hidden w None < 2.
Proof.
  intros H. unfold nga_hidden. assert (w / 3 < 4) by (apply Nat.div_lt_upper_bound; lia). 
  assert (Nat.sqrt (w / 3) <= Nat.sqrt 3) by (apply Nat.sqrt_le_mono; lia). change (Nat.sqrt 3) with 1 in *. lia.
Qed.

(* ---------- concrete runs ---------- *)
(** A root function good enough for the mutation: the tangent of the 16th root at 1. *)
Definition rt_demo (y : Q) : Q := (1 - (1 - y) / 16)%Q.
Lemma rt_demo_ok : root16 rt_demo.
Proof.
  intros t y T Y1 Y2. unfold rt_demo. split; [|assert ((1 - y) / 16 == (1 - y) * (1#16))%Q as -> by field; lra].
  assert (Sq : forall s : Q, (2 * s - 1 <= s * s)%Q). { intros s. assert (0 <= (s - 1) * (s - 1))%Q; [|lra]. destruct (Qlt_le_dec s 1); [assert ((s - 1) * (s - 1) == (1 - s) * (1 - s))%Q as -> by ring|]; apply Qmult_le_0_compat; lra. }
  pose proof (Sq t) as S1. pose proof (Sq (t * t)%Q) as S2. pose proof (Sq ((t * t) * (t * t))%Q) as S3. pose proof (Sq (((t * t) * (t * t)) * ((t * t) * (t * t)))%Q) as S4.
  assert (E : (t ^ 16 == (((t * t) * (t * t)) * ((t * t) * (t * t))) * (((t * t) * (t * t)) * ((t * t) * (t * t))))%Q) by ring.
  rewrite E in Y1. assert ((1 - y) / 16 == (1 - y) * (1#16))%Q as -> by field.
  set (a := (t * t)%Q) in *. set (b := (a * a)%Q) in *. set (c := (b * b)%Q) in *. set (d := (c * c)%Q) in *. clearbody a b c d. lra.
Qed.

Definition sg_net : Type := list (list Q * Q).
Definition sg_train (c k : nat) (data : list (list Q * Q)) : sg_net := data.
(** Prediction: value of the first sample plus the first coordinate. *)
Definition sg_predict (w : sg_net) (x : list Q) : Q := (match w with (_, y) :: _ => y | [] => 0 end + nth 0 x 0)%Q.

Definition sg_int : list dimn := [{| d_int := true; d_lo := 0; d_hi := 3 |}].
Definition sg_mix : list dimn := [{| d_int := true; d_lo := 0; d_hi := 3 |}; {| d_int := false; d_lo := -1; d_hi := 1 |}].
Definition sg_lh : lh_draw := LhDraw (fun i j => 1#4)%Q (fun i j => i).
Definition sg_ga : nga_draw := NgaDraw (GaDraw (fun i => i) (fun i j => 1#2)%Q (fun i j => 1#2)%Q (fun i j => 0)%Q (fun i j => 1#4)%Q) (fun k => k).
Definition sg_fit (x : list Q) : Q := (nth 0 x 0 * nth 0 x 0)%Q.

Definition sg_nga (m : mode) (ds : list dimn) (npop nwarm h ngen : nat) : option nga_result :=
  nga_evolute sg_net sg_train sg_predict rt_demo m sg_fit ds npop nwarm h ngen sg_lh sg_lh (fun k => k) (fun _ => sg_ga).

(** An integer variable gets fractional values, and the reported value is not the fitness of the
    reported individual. *)
Lemma nga_int_bad : exists r x y z, sg_nga Mmin sg_int 2 6 2 1 = Some r /\ In z (nr_evals r) /\ ~ feasible sg_int z /\
  nth_error (nr_x r) 0 = Some x /\ ~ feasible sg_int x /\ nth_error (nr_y r) 0 = Some y /\ ~ (y == sg_fit x)%Q.
Proof.
  destruct (sg_nga Mmin sg_int 2 6 2 1) as [r|] eqn:E; [|vm_compute in E; discriminate].
  assert (NI : forall a b, (Z.of_nat 0 < a mod Zpos b)%Z -> ~ feasible sg_int [a # b]).
  { intros a b H F. inversion F as [|? ? ? ? (_ & _ & I) _]; subst. destruct (I eq_refl) as (w & Hw). unfold Qeq in Hw. simpl in Hw. rewrite Z.mul_1_r in Hw. subst a. rewrite Z.mod_mul in H; lia. }
  assert (E2 : option_map (fun r => (nth_error (nr_x r) 0, nth_error (nr_y r) 0, nth_error (nr_evals r) 0)) (sg_nga Mmin sg_int 2 6 2 1) =
               option_map (fun r => (nth_error (nr_x r) 0, nth_error (nr_y r) 0, nth_error (nr_evals r) 0)) (Some r)) by (rewrite E; reflexivity).
  vm_compute in E2. cbn [option_map] in E2. inversion E2 as [[X Y V]]. clear E2 E. symmetry in X, Y, V.
  eexists r, _, _, _. split; [reflexivity|]. split; [exact (nth_error_In (nr_evals r) 0 V)|]. split; [apply NI; vm_compute; reflexivity|]. split; [exact X|].
  split; [apply NI; vm_compute; reflexivity|]. split; [exact Y|]. vm_compute. discriminate.
Qed.

Definition sg_hd : hdraw := HDraw (9#10) (1#4) (1#4) 1 (1#2) (1#2) (1#4) (fun _ => 1#8) (VDraw (fun _ => 1#2) (fun _ => 0)) (VDraw (fun _ => 1#2) (fun _ => 0)) (VDraw (fun _ => 1#2) (fun _ => 0)).
Definition sg_nhho (m : mode) (warm : option nat) (n ngen : nat) : option nh_result :=
  nh_evolute sg_net sg_train sg_predict (fun _ => 1%Q) m sg_fit sg_mix NearestInt n (2#10) warm ngen None sg_lh sg_lh (fun _ _ => sg_hd).

(** Maximising, the hawk reported has the smallest prediction, and the value is its negative. *)
Lemma nhho_max_bad : exists r s x y z fx fz, sg_nhho Mmax (Some 6) 3 1 = Some r /\ nth_error (h_trace r) 0 = Some s /\
  nth_error (hx r) 0 = Some x /\ nth_error (hy r) 0 = Some y /\ In (x, fx) (combine (hs_hawks s) (hs_preds s)) /\ In (z, fz) (combine (hs_hawks s) (hs_preds s)) /\
  (fx < fz)%Q /\ (y == - fx)%Q /\ ~ (y == fx)%Q.
Proof.
  destruct (sg_nhho Mmax (Some 6) 3 1) as [r|] eqn:E; [|vm_compute in E; discriminate].
  assert (E2 : option_map (fun r => (nth_error (hx r) 0, nth_error (hy r) 0, nth_error (h_trace r) 0)) (sg_nhho Mmax (Some 6) 3 1) =
               option_map (fun r => (nth_error (hx r) 0, nth_error (hy r) 0, nth_error (h_trace r) 0)) (Some r)) by (rewrite E; reflexivity).
  vm_compute in E2. cbn [option_map] in E2. inversion E2 as [[X Y V]]. clear E2 E. symmetry in X, Y, V.
  eexists r, _, _, _, _, _, _. split; [reflexivity|]. split; [exact V|]. split; [exact X|]. split; [exact Y|]. cbn [hs_hawks hs_preds combine].
  split; [left; reflexivity|]. split; [right; left; reflexivity|]. split; [vm_compute; reflexivity|]. split; [vm_compute; reflexivity|]. vm_compute. discriminate.
Qed.

Lemma nhho_default_bad : exists r, sg_nhho Mmin None 6 1 = Some r /\ h_warm r = 6 /\ 6 <> 20 * length sg_mix.
Proof.
  destruct (sg_nhho Mmin None 6 1) as [r|] eqn:E; [|vm_compute in E; discriminate]. exists r. split; auto. split; [|simpl; lia].
  assert (E2 : option_map h_warm (sg_nhho Mmin None 6 1) = option_map h_warm (Some r)) by (rewrite E; reflexivity). vm_compute in E2. inversion E2. auto.
Qed.

(** The first target. *)
Definition fst_raw (c k : nat) (tr te : tset) : Q := match tr with [] => 0%Q | p :: _ => snd p end.
Definition fst_predict (w : Q) (x : list Q) : Q := w.
Lemma fst_ok : within_targets fst_raw fst_predict.
Proof. intros c k tr te x H. unfold fst_predict, fst_raw. destruct H; [lra|auto]. Qed.

Lemma nga_integers : exists train predict rt fit ds npop nwarm h ngen lw lp sh0 drs r x y z,
  root16 rt /\ unit_draws (lh_u lw) /\ (forall t i j, 0 <= gm_u (nd_ga (drs t)) i j <= 1)%Q /\ wf_dims ds /\
  nga_evolute sg_net train predict rt Mmin fit ds npop nwarm h ngen lw lp sh0 drs = Some r /\
  In z (nr_evals r) /\ ~ feasible ds z /\ nth_error (nr_x r) 0 = Some x /\ ~ feasible ds x /\ nth_error (nr_y r) 0 = Some y /\ ~ (y == fit x)%Q.
Proof.
  destruct nga_int_bad as (r & x & y & z & H). exists sg_train, sg_predict, rt_demo, sg_fit, sg_int, 2, 6, 2, 1, sg_lh, sg_lh, (fun k => k), (fun _ => sg_ga), r, x, y, z.
  split; [exact rt_demo_ok|]. split; [intros i j; simpl; lra|]. split; [intros; simpl; lra|]. split; [|exact H].
  constructor; [|constructor]. simpl. split; [lra|]. intros _. split; [exists 0%Z|exists 3%Z]; reflexivity.
Qed.
Lemma nhho_max : exists train predict expf fit ds mt n ts warm ngen x0 lw lp drs r s x y z fx fz,
  nh_evolute sg_net train predict expf Mmax fit ds mt n ts warm ngen x0 lw lp drs = Some r /\ nth_error (h_trace r) 0 = Some s /\
  nth_error (hx r) 0 = Some x /\ nth_error (hy r) 0 = Some y /\
  In (x, fx) (combine (hs_hawks s) (hs_preds s)) /\ In (z, fz) (combine (hs_hawks s) (hs_preds s)) /\ (fx < fz)%Q /\ (y == - fx)%Q /\ ~ (y == fx)%Q.
Proof.
  destruct nhho_max_bad as (r & s & x & y & z & fx & fz & H).
  exists sg_train, sg_predict, (fun _ => 1%Q), sg_fit, sg_mix, NearestInt, 3, (2#10)%Q, (Some 6), 1, None, sg_lh, sg_lh, (fun _ _ => sg_hd), r, s, x, y, z, fx, fz. exact H.
Qed.
Lemma nhho_warmups : exists train predict expf fit ds mt n ts ngen x0 lw lp drs r,
  nh_evolute sg_net train predict expf Mmin fit ds mt n ts None ngen x0 lw lp drs = Some r /\ h_warm r = n /\ h_warm r <> 20 * length ds.
Proof.
  destruct nhho_default_bad as (r & E & H1 & H2).
  exists sg_train, sg_predict, (fun _ => 1%Q), sg_fit, sg_mix, NearestInt, 6, (2#10)%Q, 1, None, sg_lh, sg_lh, (fun _ _ => sg_hd), r. rewrite H1. auto.
Qed.

Lemma nga_default net train predict rt m fit ds npop arg ngen lw lp sh0 drs :
  root16 rt -> unit_draws (lh_u lp) -> (forall t i j, 0 <= gm_u (nd_ga (drs t)) i j <= 1)%Q ->
  ds <> [] -> Forall (fun d => (d_lo d < d_hi d)%Q) ds -> 2 <= npop -> (forall w, arg = Some w -> 12 <= w) ->
  exists r, nga_evolute net train predict rt m fit ds npop (nga_warmups ds arg) (nga_hidden (nga_warmups ds arg) None) ngen lw lp sh0 drs = Some r.
Proof.
  intros R Up Um Hne Hl Hp Hw. assert (12 <= nga_warmups ds arg). { unfold nga_warmups. destruct arg; auto. destruct ds; [congruence|simpl; lia]. }
  destruct (sqrt_hidden _ H). apply nga_total; auto. eapply Forall_impl; [|exact Hl]. intros; simpl in *; lra.
Qed.
Lemma nh_returns net train predict expf m fit ds mt n ts warm ngen x0 lw lp drs :
  wf_dims ds -> discrete_ok mt ds -> (forall i j, 0 <= lh_u lw i j <= 1)%Q -> (forall i j, 0 <= lh_u lp i j <= 1)%Q -> good_hawks ds n x0 -> 1 <= n ->
  (exists r, nh_evolute net train predict expf m fit ds mt n ts warm ngen x0 lw lp drs = Some r) <->
  nn_enough ts (match warm with Some w => w | None => n end / 3) = true.
Proof.
  intros W DO Uw Up X0 Hn. split.
  - intros (r & E). destruct (nn_enough ts (match warm with Some w => w | None => n end / 3)) eqn:K; auto. rewrite nh_few in E; auto. discriminate.
  - intros K. apply nh_total; auto.
Qed.
Lemma nh_returns_default net train predict expf m fit ds mt n warm ngen x0 lw lp drs :
  wf_dims ds -> discrete_ok mt ds -> (forall i j, 0 <= lh_u lw i j <= 1)%Q -> (forall i j, 0 <= lh_u lp i j <= 1)%Q -> good_hawks ds n x0 -> 1 <= n ->
  (exists r, nh_evolute net train predict expf m fit ds mt n (2#10) warm ngen x0 lw lp drs = Some r) <-> 6 <= match warm with Some w => w | None => n end.
Proof.
  intros W DO Uw Up X0 Hn. rewrite nh_returns by auto. rewrite default_enough. set (w := match warm with Some w => w | None => n end). split; intros H.
  - pose proof (Nat.mul_div_le w 3). lia.
  - apply (Nat.div_le_lower_bound w 3 2); lia.
Qed.
