(** Proofs about action_probability. *)
From Coq Require Import List Arith ZArith Reals Lra Lia Bool.
From Verif Require Import PD_Model PD_Spec PD_Proofs PD_Race PD_Multi PD_Gauss PD_Bern PD_Final LS_Spec LS_Proofs AP_Model AP_Spec AP_Proofs.
Import ListNotations.
Open Scope R_scope.

Lemma paired_same : forall {A B} s (l : list A) (m : list B), length l = length m -> paired s l m = Some (combine l m).
Proof. intros. unfold paired. rewrite H, Nat.eqb_refl. reflexivity. Qed.
Lemma paired_differs : forall {A B} s (l : list A) (m : list B), length l <> length m -> (match s with ABox _ _ => False | _ => True end) -> paired s l m = None.
Proof. intros A B s l m H K. unfold paired. apply Nat.eqb_neq in H. rewrite H. destruct s; [contradiction| | | |]; reflexivity. Qed.

Lemma single_value : forall s flat act lp, action_probability s false false [flat] [act] lp = match row_prob s flat act with None => None | Some v => Some (One (to_space s lp v)) end.
Proof. intros. unfold action_probability. rewrite paired_same by reflexivity. cbn. destruct (row_prob s flat act); reflexivity. Qed.

(** ** Row by row *)
Lemma batch_rowwise : forall s rc flats acts lp ps, length flats = length acts -> length ps = length acts ->
  (forall i flat act p, nth_error flats i = Some flat -> nth_error acts i = Some act -> nth_error ps i = Some p -> action_probability s false false [flat] [act] lp = Some (One p)) ->
  action_probability s rc true flats acts lp = Some (Many ps).
Proof.
  intros s rc flats acts lp ps L M H. unfold action_probability. rewrite paired_same by auto. cbn [bind].
  assert (E : all_some (map (fun fa => bind (row_prob s (fst fa) (snd fa)) (fun v => Some (to_space s lp v))) (combine flats acts)) = Some ps).
  { revert acts ps L M H. induction flats as [|f flats IH]; intros [|a acts] [|p ps] L M H; try discriminate; [reflexivity|].
    cbn [combine map all_some fst snd]. pose proof (H 0%nat f a p eq_refl eq_refl eq_refl) as H0. rewrite single_value in H0. destruct (row_prob s f a) as [v|]; [|discriminate].
    injection H0 as <-. cbn [bind]. rewrite (IH acts ps); [reflexivity|cbn in L; lia|cbn in M; lia|]. intros i. intros fl ac q A B C. exact (H (S i) fl ac q A B C). }
  rewrite E. reflexivity.
Qed.
Lemma batch_differs : forall s rc vec flats acts lp, length flats <> length acts -> (match s with ABox _ _ => False | _ => True end) -> action_probability s rc vec flats acts lp = None.
Proof. intros. unfold action_probability. rewrite paired_differs by auto. reflexivity. Qed.
Lemma recurrent_single : forall s flats acts lp, action_probability s true false flats acts lp = None.
Proof. intros. unfold action_probability. destruct (paired s flats acts); [|reflexivity]. cbn [bind]. destruct (all_some _); reflexivity. Qed.

(** ** The logarithm *)
Lemma all_some_to : forall {A} (f : A -> option R) (g : R -> R) l, all_some (map (fun x => bind (f x) (fun v => Some (g v))) l) = match all_some (map f l) with None => None | Some r => Some (map g r) end.
Proof.
  induction l as [|x l IH]; [reflexivity|]. cbn [map all_some]. destruct (f x) as [v|]; [|reflexivity]. cbn [bind]. rewrite IH. destruct (all_some (map f l)); reflexivity.
Qed.
Lemma to_ln : forall s v, to_space s true v = ln (to_space s false v).
Proof. intros [lo hi|n|nv|n|] v; cbn [to_space]; try reflexivity. now rewrite ln_exp. Qed.
Lemma logarithm : forall s rc vec flats acts, action_probability s rc vec flats acts true = on_answer ln (action_probability s rc vec flats acts false).
Proof.
  intros. unfold action_probability. destruct (paired s flats acts) as [ps|]; [|reflexivity]. cbn [bind].
  rewrite (all_some_to (fun fa => row_prob s (fst fa) (snd fa)) (to_space s true)), (all_some_to (fun fa => row_prob s (fst fa) (snd fa)) (to_space s false)).
  destruct (all_some _) as [r|]; [|reflexivity]. cbn [bind].
  assert (E : map (to_space s true) r = map ln (map (to_space s false) r)) by (rewrite map_map; apply map_ext; intros; apply to_ln).
  destruct vec; [cbn [on_answer]; now rewrite E|]. destruct rc; [reflexivity|]. destruct r as [|v r]; [reflexivity|]. cbn [map first_row on_answer]. now rewrite to_ln.
Qed.

(** ** Discrete *)
Lemma pick_in : forall p a, (a < length p)%nat -> pick p (Z.of_nat a) = Some (nth a p 0).
Proof.
  intros p a H. unfold pick. rewrite (proj2 (Z.leb_le 0 (Z.of_nat a))) by lia. rewrite (proj2 (Z.ltb_lt (Z.of_nat a) (Z.of_nat (length p)))) by lia. cbn [andb]. now rewrite Nat2Z.id.
Qed.
Lemma pick_neg : forall p k, (0 < k <= length p)%nat -> pick p (- Z.of_nat k) = Some (nth (length p - k) p 0).
Proof.
  intros p k H. unfold pick. rewrite (proj2 (Z.leb_gt 0 (- Z.of_nat k))) by lia. cbn [andb].
  rewrite (proj2 (Z.leb_le (- Z.of_nat (length p)) (- Z.of_nat k))) by lia. rewrite (proj2 (Z.ltb_lt (- Z.of_nat k) 0)) by lia. cbn [andb]. do 2 f_equal. lia.
Qed.
Lemma pick_out : forall p a, (a < - Z.of_nat (length p) \/ Z.of_nat (length p) <= a)%Z -> pick p a = None.
Proof.
  intros p a H. unfold pick. destruct (0 <=? a)%Z eqn:A; destruct (a <? Z.of_nat (length p))%Z eqn:B; destruct (- Z.of_nat (length p) <=? a)%Z eqn:C; destruct (a <? 0)%Z eqn:D; cbn [andb]; try reflexivity; lia.
Qed.
Lemma discrete_value : forall n flat a, (a < length flat)%nat -> action_probability (ADiscrete n) false false [flat] [Whole [Z.of_nat a]] false = Some (One (prob flat a)).
Proof. intros n flat a H. rewrite single_value. cbn [row_prob]. rewrite pick_in by (now rewrite softmax_length). rewrite softmax_nth by auto. reflexivity. Qed.
Lemma discrete_negative : forall n flat k lp, (0 < k <= length flat)%nat ->
  action_probability (ADiscrete n) false false [flat] [Whole [(- Z.of_nat k)%Z]] lp = action_probability (ADiscrete n) false false [flat] [Whole [Z.of_nat (length flat - k)]] lp.
Proof.
  intros n flat k lp H. rewrite !single_value. cbn [row_prob]. rewrite pick_neg, pick_in by (rewrite softmax_length; lia). now rewrite softmax_length.
Qed.
Lemma discrete_outside : forall n flat a lp, (a < - Z.of_nat (length flat) \/ Z.of_nat (length flat) <= a)%Z -> action_probability (ADiscrete n) false false [flat] [Whole [a]] lp = None.
Proof. intros n flat a lp H. rewrite single_value. cbn [row_prob]. rewrite pick_out by (now rewrite softmax_length). reflexivity. Qed.

(** ** Several discrete actions *)
Lemma tuple_picks : forall ls x, Forall2 (fun a l => (a < length l)%nat) x ls ->
  all_some (map (fun la => pick (softmax (fst la)) (snd la)) (combine ls (map Z.of_nat x))) = Some (map (fun lx => prob (fst lx) (snd lx)) (combine ls x)).
Proof.
  intros ls x H. induction H as [|a l x ls A H IH]; [reflexivity|]. cbn [map combine fst snd all_some]. rewrite pick_in by (now rewrite softmax_length). rewrite softmax_nth by auto. now rewrite IH.
Qed.
Lemma multi_value : forall nvec flat ls x, parts nvec flat ls -> nvec <> [] -> Forall2 (fun a n => (a < n)%nat) x nvec ->
  action_probability (AMulti nvec) false false [flat] [Whole (map Z.of_nat x)] false = Some (One (tuple_prob ls x)).
Proof.
  intros nvec flat ls x P N H. rewrite single_value. cbn [row_prob]. rewrite map_length.
  pose proof (Forall2_length _ _ _ H) as L. rewrite L, Nat.eqb_refl. destruct nvec as [|n0 nv] eqn:E; [congruence|]. cbn [length Nat.eqb orb negb]. rewrite <- E in *.
  rewrite (proj2 (split_at_iff nvec flat ls) P). cbn [bind]. destruct P as [_ P].
  assert (H' : Forall2 (fun a l => (a < length l)%nat) x ls).
  { clear - H P. rewrite <- P in H. clear P. revert ls H. induction x as [|a x IH]; intros [|l ls] H; inversion H; constructor; auto. }
  rewrite tuple_picks by auto. reflexivity.
Qed.

(** ** Bits *)
Lemma bits_in : forall n x, In x (bits n) -> length x = n /\ Forall (fun b => b = 0%nat \/ b = 1%nat) x.
Proof.
  induction n as [|n IH]; intros x H.
  - destruct H as [<-|[]]. split; [reflexivity|constructor].
  - cbn [bits] in H. apply in_app_iff in H. destruct H as [H|H]; apply in_map_iff in H; destruct H as (y & <- & Y); destruct (IH y Y) as [L F]; (split; [cbn; now rewrite L|]); constructor; auto.
Qed.
Lemma binary_value : forall flat x, In x (bits (length flat)) ->
  action_probability (ABinary (length flat)) false false [flat] [Whole (map Z.of_nat x)] false = Some (One (bits_prob flat x)).
Proof.
  intros flat x H. rewrite single_value. cbn [row_prob]. destruct (bits_in _ _ H) as [L F]. rewrite map_length, L, Nat.eqb_refl. do 2 f_equal. cbn [to_space].
  unfold bits_prob, rprod, product. f_equal. clear H. revert x L F. induction flat as [|l flat IH]; intros [|b x] L F; try discriminate; [reflexivity|].
  cbn [map combine fst snd]. f_equal; [|apply IH; [cbn in L; lia|now apply Forall_inv_tail in F]].
  rewrite logistic_sigmoid. apply Forall_inv in F. destruct F as [-> | ->]; cbn; ring.
Qed.

(** ** Box *)
Lemma two_s : forall s, 2 * s < exp s.
Proof.
  intros s. assert (L : ln 2 < 1). { apply exp_lt_inv. rewrite exp_ln by lra. pose proof (exp_ineq1 1). lra. }
  assert (E : exp s = 2 * exp (s - ln 2)). { unfold Rminus. rewrite exp_plus, exp_Ropp, exp_ln by lra. field. }
  destruct (Req_dec (s - ln 2) 0) as [Z0|Z0].
  - rewrite E, Z0, exp_0. lra.
  - pose proof (exp_ineq1 (s - ln 2) Z0). lra.
Qed.
Lemma product_exp : forall {A} (f : A -> R) l, product (map (fun x => exp (f x)) l) = exp (total (map f l)).
Proof. induction l as [|x l IH]; cbn [map product total fold_right]; [now rewrite exp_0|]. fold (product (map (fun x => exp (f x)) l)). fold (total (map f l)). now rewrite IH, exp_plus. Qed.
Lemma normal_wide : forall m s x, normal m (exp (exp s / 2)) x = exp (- (sq (x - m) / (2 * exp (exp s)) + (1 / 2 * ln (2 * PI) + 5 / 10 * exp s))).
Proof.
  intros m s x. rewrite normal_ln. f_equal. f_equal.
  assert (E : sq ((x - m) / exp (exp s / 2)) = sq (x - m) / exp (exp s)).
  { unfold sq. replace (exp (exp s)) with (exp (exp s / 2) * exp (exp s / 2)) by (rewrite <- exp_plus; f_equal; field). field. apply Rgt_not_eq, exp_pos. }
  rewrite E. field. apply Rgt_not_eq, exp_pos.
Qed.
Lemma box_density : forall ms ss x, length ss = length ms -> length x = length ms ->
  exp (box_logprob ms (map exp ss) x) = density ms (map (fun s => exp (exp s / 2)) ss) x.
Proof.
  intros ms ss x L M. unfold box_logprob, density, map3.
  assert (D : map (fun t : R * (R * R) => normal (fst t) (fst (snd t)) (snd (snd t))) (combine ms (combine (map (fun s => exp (exp s / 2)) ss) x)) =
    map (fun t => exp (- (sq (snd (snd t) - fst t) / (2 * exp (exp (fst (snd t)))) + (1 / 2 * ln (2 * PI) + 5 / 10 * exp (fst (snd t)))))) (combine ms (combine ss x))).
  { revert ss x L M. induction ms as [|m ms IH]; intros [|s ss] [|y x] L M; try discriminate; [reflexivity|]. cbn [map combine fst snd]. f_equal; [apply normal_wide|]. apply IH; cbn in *; lia. }
  rewrite D, product_exp. f_equal. clear D. rewrite !rsum_total.
  revert ss x L M. induction ms as [|m ms IH]; intros [|s ss] [|y x] L M; try discriminate.
  - cbn. field.
  - cbn [map combine fst snd total fold_right length]. rewrite S_INR.
    specialize (IH ss x ltac:(cbn in *; lia) ltac:(cbn in *; lia)). unfold total in *.
    set (p := sq (y - m) / (2 * exp (exp s))) in *. set (e := exp s) in *. set (c := ln (2 * PI)) in *.
    change (rsum (e :: map exp ss)) with (e + rsum (map exp ss)). rewrite <- IH. set (I := INR (length ms)) in *. set (T := rsum (map exp ss)). lra.
Qed.
Lemma box_value : forall lo hi ms ss x, length ss = length ms -> length x = length ms ->
  action_probability (ABox lo hi) false false [ms ++ ss] [Real x] false = Some (One (density ms (map (fun s => exp (exp s / 2)) ss) x)).
Proof.
  intros lo hi ms ss x L M. rewrite single_value. cbn [row_prob]. rewrite halves_app by auto. cbn [bind fst snd]. rewrite M, Nat.eqb_refl. cbn [to_space]. do 2 f_equal. now apply box_density.
Qed.
Lemma normal_peak : forall m s, 0 < s -> normal m s m = 1 / (s * sqrt (2 * PI)).
Proof. intros m s H. unfold normal. replace (- ((m - m) * (m - m)) / (2 * (s * s))) with 0 by (field; lra). rewrite exp_0. ring. Qed.
Lemma peak_less : forall m s, 0 < normal m (exp (exp s / 2)) m < normal m (exp s) m.
Proof.
  intros m s. rewrite !normal_peak by apply exp_pos. pose proof two_pi as P. assert (Q : 0 < sqrt (2 * PI)) by now apply sqrt_lt_R0.
  pose proof (exp_pos s). pose proof (exp_pos (exp s / 2)). split; [apply Rdiv_lt_0_compat; [lra|now apply Rmult_lt_0_compat]|].
  unfold Rdiv. apply Rmult_lt_compat_l; [lra|]. apply Rinv_lt_contravar; [repeat apply Rmult_lt_0_compat; assumption|]. apply Rmult_lt_compat_r; [assumption|].
  apply exp_increasing. pose proof (two_s s). lra.
Qed.
Lemma density_cons : forall m ms s ss x xs, density (m :: ms) (s :: ss) (x :: xs) = normal m s x * density ms ss xs.
Proof. reflexivity. Qed.
Lemma peaks : forall ms ss, length ss = length ms -> 0 < density ms (map (fun s => exp (exp s / 2)) ss) ms <= density ms (map exp ss) ms /\
  (ms <> [] -> density ms (map (fun s => exp (exp s / 2)) ss) ms < density ms (map exp ss) ms).
Proof.
  induction ms as [|m ms IH]; intros [|s ss] L; try discriminate.
  - split; [cbn; lra|congruence].
  - cbn [map]. rewrite !density_cons. destruct (IH ss ltac:(cbn in L; lia)) as [[A B] _]. destruct (peak_less m s) as [C D].
    assert (normal m (exp (exp s / 2)) m * density ms (map (fun s => exp (exp s / 2)) ss) ms < normal m (exp s) m * density ms (map exp ss) ms).
    { apply Rlt_le_trans with (normal m (exp s) m * density ms (map (fun s => exp (exp s / 2)) ss) ms); [apply Rmult_lt_compat_r; assumption|apply Rmult_le_compat_l; lra]. }
    split; [|intros _; exact H]. split; [now apply Rmult_lt_0_compat|lra].
Qed.

(** ** One observation and several actions in a Box *)
Lemma box_first : forall lo hi ms ss x rest lp, length ss = length ms -> length x = length ms -> Forall (fun y => length y = length ms) rest ->
  action_probability (ABox lo hi) false false [ms ++ ss] (map Real (x :: rest)) lp = action_probability (ABox lo hi) false false [ms ++ ss] [Real x] lp.
Proof.
  intros lo hi ms ss x rest lp L M F. rewrite single_value. unfold action_probability.
  assert (P : paired (ABox lo hi) [ms ++ ss] (map Real (x :: rest)) = Some (map (fun b => (ms ++ ss, b)) (map Real (x :: rest)))).
  { unfold paired. destruct (length [ms ++ ss] =? length (map Real (x :: rest)))%nat eqn:E; [|reflexivity].
    apply Nat.eqb_eq in E. destruct rest; [reflexivity|]. cbn in E. lia. }
  rewrite P. cbn [bind]. rewrite map_map.
  assert (V : forall y, length y = length ms -> row_prob (ABox lo hi) (ms ++ ss) (Real y) = Some (box_logprob ms (map exp ss) y)).
  { intros y Y. cbn [row_prob]. rewrite halves_app by auto. cbn [bind fst snd]. now rewrite Y, Nat.eqb_refl. }
  rewrite map_map. cbn [map all_some fst snd]. rewrite (V x M). cbn [bind].
  assert (E : exists r, all_some (map (fun y => bind (row_prob (ABox lo hi) (fst (ms ++ ss, Real y)) (snd (ms ++ ss, Real y))) (fun v => Some (to_space (ABox lo hi) lp v))) rest) = Some r).
  { clear P. induction F as [|y rest Y F IH]; [eexists; reflexivity|]. destruct IH as [r IH]. cbn [map all_some fst snd] in *. rewrite (V y Y). cbn [bind]. rewrite IH. eexists; reflexivity. }
  destruct E as [r E]. cbn [fst snd row_prob] in E. cbn [fst snd row_prob]. rewrite E. reflexivity.
Qed.

(** ** The whole distribution for one observation *)
Lemma single_discrete : forall n flat, flat <> [] -> single_proba (ADiscrete n) flat = Some (Row (map (prob flat) (actions (length flat)))).
Proof. intros n flat N. unfold single_proba, proba_step. cbn [map]. now rewrite softmax_probs. Qed.
Lemma single_binary : forall n flat, single_proba (ABinary n) flat = Some (Row (map logistic flat)).
Proof. intros n flat. unfold single_proba, proba_step. cbn [map]. do 2 f_equal. apply map_ext. intros; apply logistic_sigmoid. Qed.
Lemma single_box : forall lo hi ms ss, length ss = length ms -> single_proba (ABox lo hi) (ms ++ ss) = Some (Rows [ms]).
Proof. intros lo hi ms ss L. unfold single_proba, proba_step. cbn [map all_some]. rewrite halves_app by auto. reflexivity. Qed.
Lemma single_multi : forall n nvec flat l ls, parts (n :: nvec) flat (l :: ls) -> (0 < n)%nat -> single_proba (AMulti (n :: nvec)) flat = Some (Rows [map (prob l) (actions n)]).
Proof.
  intros n nvec flat l ls P N. unfold single_proba, proba_step. cbn [map all_some]. rewrite (proj2 (split_at_iff _ _ _) P). cbn [length seq map]. unfold column. cbn [map nth].
  destruct P as [_ P]. cbn in P. injection P as P1 P2. rewrite softmax_probs by (destruct l; cbn in P1; [lia|discriminate]). now rewrite P1.
Qed.
Lemma box_wrong : forall lo hi ms ss, length ss = length ms -> ms <> [] ->
  exists p, action_probability (ABox lo hi) false false [ms ++ ss] [Real ms] false = Some (One p) /\ 0 < p < density ms (map exp ss) ms.
Proof. intros lo hi ms ss L N. eexists. split; [now apply box_value|]. destruct (peaks ms ss L) as [[A _] B]. split; auto. Qed.
