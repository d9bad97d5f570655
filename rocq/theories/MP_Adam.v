(** Lemmas for C126. *)
From Coq Require Import Reals List ZArith Arith Bool Lia Lra Permutation.
From Verif Require Import MP_Model MP_Spec MP_Proofs.
Import ListNotations.
Open Scope R_scope.

Lemma nth_map2 {A B C} (f : A * B -> C) : forall a b i dc da db, (i < length a)%nat -> (i < length b)%nat ->
  nth i (map f (combine a b)) dc = f (nth i a da, nth i b db).
Proof.
  induction a as [|x a IH]; intros [|y b] i dc da db L1 L2; cbn in L1, L2; try lia. destruct i as [|i]; [reflexivity|]. cbn. apply IH; lia.
Qed.
Lemma decayed_snoc b gs g : decayed b (gs ++ [g]) = b * decayed b gs + (1 - b) * g.
Proof.
  unfold decayed. rewrite app_length, Nat.add_1_r, rev_app_distr. cbn [rev app seq combine map].
  assert (E : forall l k, sum (map (fun p : nat * R => b ^ fst p * snd p) (combine (seq (S k) (length l)) l))
    = b * sum (map (fun p : nat * R => b ^ fst p * snd p) (combine (seq k (length l)) l))).
  { unfold sum. induction l as [|x l IH]; intros k; [cbn; lra|]. cbn [length seq combine map fold_right fst snd]. rewrite IH. cbn [pow]. ring. }
  change (sum (?x :: ?l)) with (x + sum l). cbn [fst snd pow].
  rewrite <- (rev_length gs). rewrite E. ring.
Qed.
Lemma history_snoc p calls c j : history p (calls ++ [c]) j = history p calls j ++ [joined p (fst c) j].
Proof. unfold history. now rewrite map_app. Qed.

Lemma grad_length p n grads : Forall (fun g => length g = n) grads -> length (global_grad p n grads) = n.
Proof. intros F. unfold global_grad. destruct (scale_grad_by_procs p); [rewrite map_length|]; now apply allreduce_length. Qed.
Lemma grad_nth p n grads j : Forall (fun g => length g = n) grads -> (j < n)%nat -> nth j (global_grad p n grads) 0 = joined p grads j.
Proof.
  intros F L. unfold global_grad, joined. destruct (scale_grad_by_procs p).
  - rewrite (nth_indep _ 0 (0 / INR (length grads))) by (rewrite map_length, allreduce_length; assumption).
    rewrite (map_nth (fun x => x / INR (length grads))), allreduce_nth by assumption. unfold average. now rewrite length_col.
  - now apply allreduce_nth.
Qed.
Theorem grad_perm : forall p n grads grads', Forall (fun g => length g = n) grads -> Permutation grads grads' -> global_grad p n grads = global_grad p n grads'.
Proof.
  intros p n grads grads' F P. assert (F' : Forall (fun g => length g = n) grads') by (eapply Permutation_Forall; eassumption).
  apply (nth_eq_list _ _ n); try (now apply grad_length). intros j L. rewrite !grad_nth by assumption. unfold joined.
  now rewrite (sum_perm _ _ (column_perm j _ _ P)), (average_perm _ _ (column_perm j _ _ P)).
Qed.

Lemma run_snoc p n calls grads rates a : run p n (calls ++ [(grads, rates)]) a
  = match run p n calls a with None => None | Some a' => update_all p n grads rates a' end.
Proof.
  revert a. induction calls as [|[g r] calls IH]; intros a; cbn; [destruct (update_all p n grads rates a); reflexivity|].
  destruct (update_all p n g r a); [apply IH|reflexivity].
Qed.

Definition blank := Process [] [] [].
Definition good p n P (calls : list (list (list R) * list R)) (a : adam) : Prop :=
  step a = length calls /\ length (procs a) = P
  /\ Forall (fun r => length (theta r) = n /\ length (exp_avg r) = n /\ length (exp_avg_sq r) = n
      /\ forall j, (j < n)%nat -> nth j (exp_avg r) 0 = decayed (beta1 p) (history p calls j)
         /\ nth j (exp_avg_sq r) 0 = decayed (beta2 p) (map (fun g => g ^ 2) (history p calls j))) (procs a).

Lemma good_start p n thetas : Forall (fun t => length t = n) thetas -> good p n (length thetas) [] (construct thetas).
Proof.
  intros F. split; [reflexivity|]. split; [cbn; now rewrite map_length|]. cbn. apply Forall_map. eapply Forall_impl; [|exact F].
  intros t L. cbv beta in *. cbn. unfold zeros. rewrite !repeat_length. repeat split; auto.
  - fold (zeros (length t)). rewrite zeros_nth. unfold decayed, sum. cbn. ring.
  - fold (zeros (length t)). rewrite zeros_nth. unfold decayed, sum. cbn. ring.
Qed.
Lemma good_update p n P calls grads rates a a' : good p n P calls a -> length grads = P -> Forall (fun g => length g = n) grads -> length rates = P ->
  update_all p n grads rates a = Some a' -> good p n P (calls ++ [(grads, rates)]) a'.
Proof.
  intros (S & L & F) LG FG LR U. unfold update_all in U. destruct (_ && _)%bool; [discriminate|]. injection U as <-. split; [|split]; cbn [step procs].
  - rewrite app_length, S. cbn. lia.
  - rewrite map_length, combine_length. lia.
  - apply Forall_map. rewrite Forall_forall in *. intros [r lr] I. apply in_combine_l in I. destruct (F r I) as (A & B & C & D).
    cbn [fst snd]. unfold advance. cbn [theta exp_avg exp_avg_sq]. pose proof (grad_length p n grads ltac:(apply Forall_forall; exact FG)) as GL.
    rewrite vadd_length, !map_length, !combine_length, !map_length, !combine_length. repeat split; try lia.
    + rewrite (nth_map2 _ _ _ _ _ 0 0) by lia. cbn [fst snd]. rewrite grad_nth by (try apply Forall_forall; assumption).
      destruct (D j H) as [-> _]. rewrite history_snoc, decayed_snoc. reflexivity.
    + rewrite (nth_map2 _ _ _ _ _ 0 0) by lia. cbn [fst snd]. rewrite grad_nth by (try apply Forall_forall; assumption).
      destruct (D j H) as [_ ->]. rewrite history_snoc, map_app. cbn [map fst]. rewrite decayed_snoc. ring.
Qed.
Lemma good_run p n P : forall calls thetas a, length thetas = P -> Forall (fun t => length t = n) thetas -> fits n P calls ->
  run p n calls (construct thetas) = Some a -> good p n P calls a.
Proof.
  induction calls as [|[grads rates] calls IH] using rev_ind; intros thetas a L F FT E.
  - injection E as <-. subst P. now apply good_start.
  - rewrite run_snoc in E. destruct (run p n calls (construct thetas)) as [b|] eqn:R; [|discriminate].
    unfold fits in FT. apply Forall_app in FT. destruct FT as [F1 F2]. inversion F2 as [|? ? (K1 & K2 & K3) _]; subst. cbn [fst snd] in *.
    eapply good_update; eauto.
Qed.

Lemma pow_lt1 b k : 0 <= b < 1 -> (0 < k)%nat -> 0 < 1 - b ^ k.
Proof. intros [B1 B2] K. assert (b ^ k < 1); [|lra]. apply pow_lt_1_compat; [split|]; assumption || lia. Qed.

Lemma decayed_nonneg b gs : 0 <= b < 1 -> Forall (fun g => 0 <= g) gs -> 0 <= decayed b gs.
Proof.
  intros B F. induction gs as [|g gs IH] using rev_ind; [unfold decayed, sum; cbn; lra|]. apply Forall_app in F. destruct F as [F1 F2].
  inversion F2; subst. rewrite decayed_snoc. specialize (IH F1). apply Rplus_le_le_0_compat; apply Rmult_le_pos; lra.
Qed.
Lemma squares_nonneg gs : Forall (fun g => 0 <= g) (map (fun g : R => g ^ 2) gs).
Proof. apply Forall_map, Forall_forall. intros x _. apply pow2_ge_0. Qed.

Lemma step_is p rate gs : usual p -> gs <> [] ->
  - (rate * sqrt (1 - beta2 p ^ length gs) / (1 - beta1 p ^ length gs)) * decayed (beta1 p) gs
    / (sqrt (decayed (beta2 p) (map (fun g => g ^ 2) gs)) + epsilon p) = - paper_step p rate gs.
Proof.
  intros (B1 & B2 & E) NE. assert (K : (0 < length gs)%nat) by (destruct gs; [congruence|cbn; lia]).
  unfold paper_step, first_moment, second_moment. pose proof (pow_lt1 _ _ B1 K) as P1. pose proof (pow_lt1 _ _ B2 K) as P2.
  set (v := decayed (beta2 p) (map (fun g => g ^ 2) gs)).
  assert (V : 0 <= v) by (apply decayed_nonneg; [exact B2|apply squares_nonneg]). clearbody v.
  rewrite sqrt_div_alt by exact P2. pose proof (sqrt_lt_R0 _ P2) as D. pose proof (sqrt_pos v) as SV.
  set (d := sqrt (1 - beta2 p ^ length gs)) in *. clearbody d. set (s := sqrt v) in *. clearbody s. field. repeat split; lra.
Qed.

Lemma weight_update p n P calls grads rates a a' i j : usual p -> good p n P calls a -> length grads = P -> Forall (fun g => length g = n) grads -> length rates = P ->
  update_all p n grads rates a = Some a' -> (i < P)%nat -> (j < n)%nat ->
  weight a' i j = weight a i j - paper_step p (nth i rates 0) (history p (calls ++ [(grads, rates)]) j).
Proof.
  intros US (S & L & F) LG FG LR U I J. unfold update_all in U. destruct (_ && _)%bool; [discriminate|]. injection U as <-. unfold weight. cbn [procs].
  rewrite map_map. rewrite (nth_map2 _ _ _ _ _ blank 0) by lia. cbn [fst snd].
  rewrite (nth_indep (map theta (procs a)) [] (theta blank)) by (rewrite map_length; lia). rewrite map_nth.
  rewrite Forall_forall in F. destruct (F (nth i (procs a) blank)) as (A & B & C & D); [apply nth_In; lia|].
  set (r := nth i (procs a) blank) in *. clearbody r. pose proof (grad_length p n grads FG) as GL. unfold advance. cbn [theta].
  rewrite vadd_nth by (rewrite !map_length, !combine_length, !map_length, !combine_length; lia).
  unfold Rminus. f_equal. rewrite (nth_map2 _ _ _ _ _ 0 0) by (rewrite map_length, combine_length; lia). cbn [fst snd].
  rewrite !(nth_map2 _ _ _ _ _ 0 0) by lia. cbn [fst snd]. rewrite !grad_nth by assumption. destruct (D j J) as [-> ->].
  rewrite S. assert (LH : length (history p (calls ++ [(grads, rates)]) j) = Datatypes.S (length calls)).
  { unfold history. rewrite map_length, app_length. cbn. lia. }
  rewrite <- LH. rewrite <- step_is; [|exact US|intros Z; rewrite Z in LH; discriminate].
  rewrite history_snoc, map_app, decayed_snoc. cbn [map fst]. rewrite decayed_snoc.
  replace (joined p grads j * joined p grads j) with (joined p grads j ^ 2) by ring. reflexivity.
Qed.
Theorem adam_paper : forall p n thetas calls grads rates a a', usual p -> Forall (fun t => length t = n) thetas ->
  fits n (length thetas) (calls ++ [(grads, rates)]) ->
  run p n calls (construct thetas) = Some a -> update_all p n grads rates a = Some a' ->
  forall i j, (i < length thetas)%nat -> (j < n)%nat ->
  weight a' i j = weight a i j - paper_step p (nth i rates 0) (history p calls j ++ [joined p grads j]).
Proof.
  intros p n thetas calls grads rates a a' US F FT E U i j I J. unfold fits in FT. apply Forall_app in FT. destruct FT as [F1 F2].
  inversion F2 as [|? ? (K1 & K2 & K3) _]; subst. cbn [fst snd] in *.
  pose proof (good_run p n _ _ _ _ eq_refl F F1 E) as G. rewrite (weight_update p n _ calls grads rates a a' i j US G K1 K2 K3 U I J).
  now rewrite history_snoc.
Qed.

(** Processes that agree. *)
Lemma agree_synced a : agree a -> synced a = true.
Proof.
  intros H. unfold synced. unfold agree in H. destruct (procs a) as [|r l]; [reflexivity|]. apply forallb_forall. intros x I.
  destruct (list_eq_dec Req_EM_T (theta r) (theta x)) as [E|E]; [reflexivity|]. exfalso. apply E.
  rewrite (H r x); [reflexivity|now left|now right].
Qed.
Lemma agree_run p n P : forall calls a, fits n P calls -> same_rates calls -> length (procs a) = P -> agree a ->
  exists a', run p n calls a = Some a' /\ agree a' /\ length (procs a') = P /\ step a' = (step a + length calls)%nat.
Proof.
  induction calls as [|[grads rates] calls IH]; intros a F S L A.
  - exists a. cbn. repeat split; auto.
  - inversion F as [|? ? (K1 & K2 & K3) F2]; subst. inversion S as [|? ? S1 S2]; subst. cbn [fst snd] in *.
    cbn [run]. unfold update_all. rewrite (agree_synced a A). cbn [negb]. rewrite andb_false_r.
    destruct (IH (Adam (map (fun q => advance p (Datatypes.S (step a)) (global_grad p n grads) (snd q) (fst q)) (combine (procs a) rates)) (Datatypes.S (step a)))) as (a' & E & A' & L' & ST).
    + exact F2.
    + exact S2.
    + cbn. rewrite map_length, combine_length. lia.
    + intros r r' I I'. cbn in I, I'. apply in_map_iff in I, I'. destruct I as ([x u] & <- & I), I' as ([y v] & <- & I'). cbn [fst snd].
      pose proof (in_combine_l _ _ _ _ I). pose proof (in_combine_r _ _ _ _ I). pose proof (in_combine_l _ _ _ _ I'). pose proof (in_combine_r _ _ _ _ I').
      rewrite (A x y) by assumption. rewrite (S1 u v) by assumption. reflexivity.
    + exists a'. split; [exact E|]. split; [exact A'|]. split; [exact L'|]. rewrite ST. cbn. lia.
Qed.
Lemma agree_construct t P : agree (construct (repeat t P)).
Proof.
  intros r r' I I'. cbn in I, I'. apply in_map_iff in I, I'. destruct I as (x & <- & I), I' as (y & <- & I'). apply repeat_spec in I, I'. now subst.
Qed.
Theorem adam_together : forall p n P t calls, fits n P calls -> same_rates calls ->
  exists a, run p n calls (construct (repeat t P)) = Some a /\ agree a /\ length (procs a) = P /\ step a = length calls.
Proof.
  intros p n P t calls F S. destruct (agree_run p n P calls (construct (repeat t P)) F S) as (a & E & A & L & ST).
  - cbn. now rewrite map_length, repeat_length.
  - apply agree_construct.
  - exists a. repeat split; auto.
Qed.
Lemma good_agree p n P calls a : good p n P calls a -> forall r r', In r (procs a) -> In r' (procs a) -> exp_avg r = exp_avg r' /\ exp_avg_sq r = exp_avg_sq r'.
Proof.
  intros (_ & _ & F) r r' I I'. rewrite Forall_forall in F. destruct (F r I) as (A & B & C & D), (F r' I') as (A' & B' & C' & D').
  split; apply (nth_eq_list _ _ n); auto; intros j J; destruct (D j J) as [U V]; destruct (D' j J) as [U' V']; congruence.
Qed.
Theorem adam_sync : forall p n thetas calls a more, Forall (fun t => length t = n) thetas -> fits n (length thetas) calls ->
  run p n calls (construct thetas) = Some a -> fits n (length thetas) more -> same_rates more ->
  agree (sync a) /\ (forall j, weight (sync a) 0 j = weight a 0 j) /\ exists a', run p n more (sync a) = Some a' /\ agree a'.
Proof.
  intros p n thetas calls a more F FT E FM SM. pose proof (good_run p n _ _ _ _ eq_refl F FT E) as G. pose proof (good_agree _ _ _ _ _ G) as H.
  assert (A : agree (sync a)).
  { unfold sync. destruct (procs a) as [|root others] eqn:PA; [intros r r' I; rewrite PA in I; destruct I|]. intros r r' I I'. cbn [procs] in I, I'.
    apply in_map_iff in I, I'. destruct I as (x & <- & I), I' as (y & <- & I'). destruct (H x y I I') as [-> ->]. reflexivity. }
  split; [exact A|]. split.
  - intros j. unfold weight, sync. destruct (procs a) as [|root others] eqn:PA; [rewrite PA; reflexivity|]. reflexivity.
  - destruct (agree_run p n (length thetas) more (sync a) FM SM) as (a' & E' & A' & _); [|exact A|now exists a'].
    destruct G as (_ & L & _). unfold sync. destruct (procs a) eqn:PA; [now rewrite PA|]. cbn [procs]. now rewrite map_length.
Qed.
Theorem adam_moments : forall p n thetas calls a, Forall (fun t => length t = n) thetas -> fits n (length thetas) calls ->
  run p n calls (construct thetas) = Some a -> forall r r', In r (procs a) -> In r' (procs a) -> exp_avg r = exp_avg r' /\ exp_avg_sq r = exp_avg_sq r'.
Proof. intros p n thetas calls a F FT E. exact (good_agree _ _ _ _ _ (good_run p n _ _ _ _ eq_refl F FT E)). Qed.
Theorem adam_check : forall p n grads rates a, update_all p n grads rates a = None <->
  (step a mod 100)%nat = 0%nat /\ exists i, (i < length (procs a))%nat /\ nth i (map theta (procs a)) [] <> nth 0 (map theta (procs a)) [].
Proof.
  intros p n grads rates a. unfold update_all. destruct (Nat.eqb_spec (step a mod 100) 0) as [E|E]; cbn [andb].
  2:{ split; [discriminate|intros [X _]; contradiction]. }
  destruct (synced a) eqn:S; cbn [negb].
  - split; [discriminate|]. intros (_ & i & L & D). exfalso. apply D. unfold synced in S. destruct (procs a) as [|root others]; [cbn in L; lia|].
    destruct i as [|i]; [reflexivity|]. cbn [map nth]. rewrite forallb_forall in S. cbn in L.
    rewrite (nth_indep _ [] (theta blank)) by (rewrite map_length; lia). rewrite map_nth.
    specialize (S (nth i others blank)). destruct (list_eq_dec _ _ _) as [Q|Q] in S; [symmetry; exact Q|]. exfalso. discriminate S. apply nth_In. lia.
  - split; [|reflexivity]. intros _. split; [exact E|]. unfold synced in S. destruct (procs a) as [|root others]; [discriminate|].
    assert (X : exists x, In x others /\ theta root <> theta x).
    { clear - S. induction others as [|x l IH]; [discriminate|]. cbn in S. destruct (list_eq_dec Req_EM_T (theta root) (theta x)) as [Q|Q].
      - cbn in S. destruct (IH S) as (y & I & D). exists y. split; [now right|exact D].
      - exists x. split; [now left|exact Q]. }
    destruct X as (x & I & D). destruct (In_nth _ _ blank I) as (k & L & K). exists (Datatypes.S k). cbn [length]. split; [lia|].
    cbn [map nth]. rewrite (nth_indep _ [] (theta blank)) by (rewrite map_length; exact L). rewrite map_nth, K. congruence.
Qed.

(** Constant gradients. *)
Lemma decayed_const b g k : decayed b (repeat g k) = (1 - b ^ k) * g.
Proof.
  induction k as [|k IH]; [unfold decayed, sum; cbn; ring|].
  replace (repeat g (S k)) with (repeat g k ++ [g]) by (rewrite <- repeat_cons; reflexivity). rewrite decayed_snoc, IH. cbn [pow]. ring.
Qed.
Lemma map_repeat' {A B} (f : A -> B) x k : map f (repeat x k) = repeat (f x) k.
Proof. induction k; cbn; congruence. Qed.
Lemma const_step p rate g k : usual p -> (0 < k)%nat -> paper_step p rate (repeat g k) = rate * g / (Rabs g + epsilon p / sqrt (1 - beta2 p ^ k)).
Proof.
  intros (B1 & B2 & E) K. unfold paper_step, first_moment, second_moment. rewrite map_repeat', !decayed_const, !repeat_length.
  pose proof (pow_lt1 _ _ B1 K) as P1. pose proof (pow_lt1 _ _ B2 K) as P2.
  replace ((1 - beta1 p ^ k) * g / (1 - beta1 p ^ k)) with g by (field; lra).
  replace ((1 - beta2 p ^ k) * g ^ 2 / (1 - beta2 p ^ k)) with (Rsqr g) by (unfold Rsqr; field; lra). rewrite sqrt_Rsqr_abs. reflexivity.
Qed.
Theorem adam_constant : forall p rate g k, usual p -> 0 < rate -> (0 < k)%nat ->
  Rabs (paper_step p rate (repeat g k)) < rate /\ (0 < g -> 0 < paper_step p rate (repeat g k)) /\ (g < 0 -> paper_step p rate (repeat g k) < 0).
Proof.
  intros p rate g k US R K. rewrite (const_step p rate g k US K). destruct US as (B1 & B2 & E). pose proof (pow_lt1 _ _ B2 K) as P2.
  pose proof (sqrt_lt_R0 _ P2) as D. set (d := sqrt (1 - beta2 p ^ k)) in *. clearbody d.
  assert (Q : 0 < epsilon p / d) by (apply Rdiv_lt_0_compat; assumption). set (q := epsilon p / d) in *. clearbody q.
  pose proof (Rabs_pos g) as AG. assert (I : 0 < / (Rabs g + q)) by (apply Rinv_0_lt_compat; lra). split; [|split].
  - unfold Rdiv. rewrite !Rabs_mult. rewrite (Rabs_right rate) by lra. rewrite (Rabs_right (/ _)) by lra.
    apply (Rmult_lt_reg_r (Rabs g + q)); [lra|]. rewrite Rmult_assoc, Rinv_l by lra. nra.
  - intros G. apply Rdiv_lt_0_compat; [nra|lra].
  - intros G. unfold Rdiv. assert (rate * g < 0) by nra. nra.
Qed.

Lemma two_run p k : usual p -> (k <= 100)%nat ->
  exists a, run p 1 (repeat ([[1]; [1]], [1; 0]) k) (construct [[0]; [0]]) = Some a /\ step a = k /\ length (procs a) = 2%nat
    /\ weight a 1 0 = 0 /\ (if Nat.eqb k 0 then weight a 0 0 = 0 else weight a 0 0 < 0) /\ Forall (fun r => length (theta r) = 1%nat) (procs a).
Proof.
  intros US. set (c := ([[1]; [1]], [1; 0])). induction k as [|k IH]; intros K.
  - exists (construct [[0]; [0]]). cbn. repeat split; auto.
  - destruct (IH ltac:(lia)) as (a & E & ST & L & W1 & W0 & FT).
    assert (FC : fits 1 2 (repeat c k)).
    { apply Forall_forall. intros x I. apply repeat_spec in I. subst x. cbn. repeat split; auto. }
    pose proof (good_run p 1 2 _ [[0]; [0]] a eq_refl ltac:(repeat constructor) FC E) as G.
    assert (U : exists a', update_all p 1 [[1]; [1]] [1; 0] a = Some a').
    { destruct (update_all p 1 [[1]; [1]] [1; 0] a) as [a'|] eqn:U; [now exists a'|]. exfalso. apply adam_check in U. destruct U as (M & i & LI & D).
      rewrite ST in M. assert (K0 : k = 0%nat) by (destruct (Nat.eq_dec k 0); [assumption|]; rewrite Nat.mod_small in M by lia; lia). rewrite K0 in E.
      change (Some (construct [[0]; [0]]) = Some a) in E. assert (EA : a = construct [[0]; [0]]) by congruence. subst a. apply D. cbn in LI. destruct i as [|[|i]]; cbn; [reflexivity|reflexivity|lia]. }
    destruct U as (a' & U). exists a'.
    assert (HC : forall m, history p (repeat c m) 0 = repeat 1 m \/ history p (repeat c m) 0 = repeat 2 m).
    { intros m. unfold history. rewrite map_repeat'. cbn [fst c]. unfold c. cbn [fst]. unfold joined, average, column, sum. cbn. destruct (scale_grad_by_procs p); [left|right]; f_equal; lra. }
    assert (RS : repeat c (S k) = repeat c k ++ [c]) by (rewrite <- repeat_cons; reflexivity).
    pose proof (weight_update p 1 2 (repeat c k) [[1]; [1]] [1; 0] a a' 0 0 US G eq_refl ltac:(repeat constructor) eq_refl U ltac:(lia) ltac:(lia)) as H0.
    pose proof (weight_update p 1 2 (repeat c k) [[1]; [1]] [1; 0] a a' 1 0 US G eq_refl ltac:(repeat constructor) eq_refl U ltac:(lia) ltac:(lia)) as H1.
    fold c in H0, H1. rewrite <- RS in H0, H1. cbn [nth] in H0, H1.
    pose proof (good_update p 1 2 (repeat c k) [[1]; [1]] [1; 0] a a' G eq_refl ltac:(repeat constructor) eq_refl U) as (_ & GL & GF).
    split; [rewrite RS; unfold c at 2; rewrite run_snoc; rewrite E; exact U|]. split.
    + unfold update_all in U. destruct (_ && _)%bool; [discriminate|]. injection U as <-. cbn. now rewrite ST.
    + split; [exact GL|]. split; [|split].
      * rewrite H1, W1. unfold paper_step, Rdiv. lra.
      * cbn [Nat.eqb]. assert (PS : 0 < paper_step p 1 (history p (repeat c (S k)) 0)).
        { destruct (HC (S k)) as [-> | ->]; apply adam_constant; auto; try lra; lia. }
        rewrite H0. destruct (Nat.eqb k 0); lra.
      * eapply Forall_impl; [|exact GF]. intros r X. apply X.
Qed.
Theorem adam_unnoticed : forall p, usual p -> let c := ([[1]; [1]], [1; 0]) in
  (forall k, (0 < k <= 100)%nat -> exists a, run p 1 (repeat c k) (construct [[0]; [0]]) = Some a /\ weight a 0 0 < weight a 1 0)
  /\ run p 1 (repeat c 101) (construct [[0]; [0]]) = None.
Proof.
  intros p US c. split.
  - intros k K. destruct (two_run p k US ltac:(lia)) as (a & E & _ & _ & W1 & W0 & _). exists a. split; [exact E|].
    destruct (Nat.eqb_spec k 0); [lia|]. lra.
  - destruct (two_run p 100 US ltac:(lia)) as (a & E & ST & L & W1 & W0 & FT).
    replace (repeat c 101) with (repeat c 100 ++ [c]) by reflexivity. unfold c at 2. rewrite run_snoc. unfold c. rewrite E. apply adam_check. rewrite ST. split; [reflexivity|].
    exists 1%nat. rewrite L. split; [lia|]. intros Q. unfold weight in W1, W0. rewrite Q in W1. cbn [Nat.eqb] in W0. lra.
Qed.
