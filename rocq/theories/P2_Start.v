(** PESA2: the starting populations, the elitism of DE over a whole run, the default memory. *)
From Coq Require Import List Arith ZArith QArith Qround Bool Lia Lqa Permutation Sorted.
From Verif Require Import Base BaseFacts Space_Model Space_Spec ER_Model Opt_Model Opt_Spec Opt_Facts Opt_Facts2 Pop_Spec Pop_Proofs
  P2_Model P2_Spec P2_Mem P2_DE P2_Proofs P2_Final P2_Elite P2_Demo P2_Wit.
Import ListNotations.
Open Scope nat_scope.

Lemma get_block a b c : map (h_get (a ++ b ++ c)) (seq (length a) (length b)) = b.
Proof.
  revert a. induction b as [|x b IH]; intros a; simpl; auto. f_equal.
  - unfold h_get. rewrite app_nth2, Nat.sub_diag by lia. reflexivity.
  - specialize (IH (a ++ [x])). rewrite <- app_assoc in IH. cbn [app] in IH. rewrite app_length in IH. simpl in IH. rewrite Nat.add_1_r in IH. exact IH.
Qed.

Lemma sorted_split {A} (f : A -> Q) l n a b : StronglySorted (fun x y => (f y <= f x)%Q) l -> In a (firstn n l) -> In b (skipn n l) -> (f b <= f a)%Q.
Proof.
  intros H. revert n. induction H as [|x l H IH F]; intros [|n] Ha Hb; simpl in *; try contradiction.
  destruct Ha as [<-|Ha]; [|eapply IH; eauto]. rewrite Forall_forall in F. apply F. rewrite <- (firstn_skipn n l). apply in_app_iff. auto.
Qed.

Section B.
Context (expf cosf : Q -> Q) (pwf : Q -> Q -> Q) (m : mode) (fit : list Q -> Q) (p : p2_par).
Context (ngen re : nat) (xs : list (list Q)) (attr : option nat) (drs : nat -> p2_draw).
Hypothesis RD : p2_ready p ngen re xs.
Local Notation F1 := (p2_F1 m fit).
Local Notation p0 := (pop0 m fit p xs).
Definition top (n : nat) : list (list Q) := map (fun rq => h_get xs (fst rq)) (p2_select p0 n).

Lemma p0_points : map (fun rq => h_get xs (fst rq)) p0 = xs.
Proof.
  unfold pop0. transitivity (map (h_get xs) (seq 0 (length xs))).
  - rewrite <- (map_map fst (h_get xs)). f_equal.
    assert (G : forall (l : list ref) (r : list Q), length l = length r -> map fst (combine l r) = l).
    { induction l as [|a l IH]; intros [|b r] L; simpl in *; auto; try discriminate. f_equal. auto. }
    apply G. rewrite seq_length, map_length. reflexivity.
  - pose proof (get_block [] xs []) as H. cbn [app length] in H. rewrite app_nil_r in H. exact H.
Qed.

Lemma top_best n : n <= length xs -> best_points m fit n xs (top n).
Proof.
  intros Hn. unfold best_points, top, p2_select. split; [rewrite best_len, pop0_len; lia|].
  exists (map (fun rq => h_get xs (fst rq)) (skipn n (Opt_Model.sort_desc snd p0))). split.
  - rewrite <- map_app, firstn_skipn. rewrite <- p0_points at 1. apply Permutation_map. symmetry. apply Opt_Facts.sort_desc_perm.
  - intros y z Hy Hz. apply in_map_iff in Hy. destruct Hy as (a & <- & Ha). apply in_map_iff in Hz. destruct Hz as (b & <- & Hb).
    apply as_max_good.
    assert (Ia : In a p0) by (eapply Permutation_in; [apply Opt_Facts.sort_desc_perm|rewrite <- (firstn_skipn n); apply in_app_iff; left; exact Ha]).
    assert (Ib : In b p0) by (eapply Permutation_in; [apply Opt_Facts.sort_desc_perm|rewrite <- (firstn_skipn n); apply in_app_iff; right; exact Hb]).
    destruct (pop0_in m fit p ngen re xs RD a Ia) as (_ & Ea & _). destruct (pop0_in m fit p ngen re xs RD b Ib) as (_ & Eb & _).
    change (as_max m (fit (h_get xs (fst a)))) with (F1 (h_get xs (fst a))). change (as_max m (fit (h_get xs (fst b)))) with (F1 (h_get xs (fst b))).
    rewrite <- Ea, <- Eb. eapply sorted_split; [|exact Ha|exact Hb]. apply Opt_Facts.sort_desc_sorted.
Qed.

Lemma start_best st : p2_start m fit p attr ngen re xs = Some st ->
  best_points m fit (p2_nwolves p) xs (map (h_get (ps_heap st)) (ps_gwo st)) /\
  best_points m fit (p2_npop p) xs (map (h_get (ps_heap st)) (ps_de st)) /\
  best_points m fit (p2_nwhales p) xs (map (h_get (ps_heap st)) (ps_woa st)).
Proof.
  intros E. unfold p2_start in E. destruct (_ && _); [|discriminate]. unfold h_new in E. cbn [length app] in E. fold (pop0 m fit p xs) in E.
  apply bind_Some in E. destruct E as (mem & _ & E). injection E as <-. cbn [ps_heap ps_gwo ps_de ps_woa].
  fold (top (p2_nwolves p)). fold (top (p2_npop p)). fold (top (p2_nwhales p)).
  destruct (rd_warmup _ _ _ _ RD) as (X1 & X2 & X3).
  split; [|split].
  - rewrite <- !app_assoc. rewrite (get_block xs). apply top_best; auto.
  - rewrite <- app_assoc. rewrite (get_block (xs ++ top (p2_nwolves p))). apply top_best; auto.
  - rewrite <- (app_nil_r (top (p2_nwhales p))) at 1. rewrite (get_block ((xs ++ top (p2_nwolves p)) ++ top (p2_npop p)) (top (p2_nwhales p)) []). apply top_best; auto.
Qed.

Lemma start_elite st : p2_start m fit p attr ngen re xs = Some st -> ps_pops st = [] -> elite m fit p xs st.
Proof.
  intros E Hp. unfold elite. rewrite Hp. split; [|intros i pop Hi; destruct i; discriminate Hi].
  intros z Hz. unfold de_offered in Hz. cbn [firstn length map concat] in Hz. rewrite app_nil_r in Hz.
  destruct (start_best st E) as (_ & (L & rest & P & O) & _). pose proof (rd_npop _ _ _ _ RD) as N.
  assert (Hz' : In z (map (h_get (ps_heap st)) (ps_de st) ++ rest)) by (eapply Permutation_in; [exact P|exact Hz]).
  apply in_app_iff in Hz'. destruct Hz' as [Hz'|Hz'].
  - apply in_map_iff in Hz'. destruct Hz' as (r & <- & Hr). exists r. split; auto. lra.
  - destruct (ps_de st) as [|r l]; [simpl in L; lia|]. exists r. split; [left; auto|]. apply as_max_good. apply O; [left; auto|auto].
Qed.

Lemma p2_elite r : respects fit -> keeps_ints (p2_method p) (p2_dims p) -> 1 <= p2_mu p (p2_npop p) ->
  p2_evolute expf cosf pwf m fit p attr ngen re drs xs = Some r ->
  forall i pop, nth_error (pq_pops r) i = Some pop -> forall z, In z (de_offered p xs (pq_pops r) i) ->
    exists x v, In (x, v) (de_part p pop) /\ as_good m (fit x) (fit z).
Proof.
  intros Rf K Mu E. assert (Sh : no_sharing_trouble p) by (right; exact K).
  pose proof RD as [W D N N1 N2 (R0 & R1) (_ & G2 & _) _ _].
  unfold p2_evolute in E. apply bind_Some in E. destruct E as (st0 & E0 & E). apply bind_Some in E. destruct E as (st & Eg & E).
  destruct (start_ok m fit p ngen re xs attr RD) as (st0' & E0' & H0 & _). rewrite E0 in E0'. injection E0' as <-.
  assert (P0 : ps_pops st0 = []). { destruct (ok_len _ _ _ _ _ _ _ _ H0) as (L & _). destruct (ps_pops st0); auto. discriminate. }
  set (steps := ngen / re * p2_npop p) in *.
  assert (HSE : st_ok m fit p xs (p2_size attr steps) re (0 + ngen / re) st /\ elite m fit p xs st).
  { apply (gens_nat (p2_gen expf cosf pwf m fit p re steps drs) (fun k s => st_ok m fit p xs (p2_size attr steps) re k s /\ elite m fit p xs s)) with (s := st0); auto.
    - intros k s s' (H & El) Es.
      destruct (p2_gen_ok expf cosf pwf m fit p W D N N1 N2 R1 xs _ re steps G2 Rf Sh drs k k s H) as (s2 & E2 & H2 & _). rewrite Es in E2. injection E2 as <-.
      split; [exact H2|]. exact (elite_step expf cosf pwf m fit p W D N N1 N2 Rf K xs _ re steps G2 Mu drs k k s s' H H2 Es El).
    - split; auto. apply start_elite; auto. }
  destruct HSE as (HS & (_ & HE)). apply bind_Some in E. destruct E as ((a & y) & _ & E). injection E as <-. cbn [pq_pops].
  intros i pop Hi z Hz. destruct (HE i pop Hi z Hz) as ((x & v) & Hx & Q1). exists x, v. split; auto. cbn [snd] in Q1.
  destruct (ok_pops _ _ _ _ _ _ _ _ HS pop) as (_ & P2); [apply nth_error_In in Hi; auto|].
  destruct (P2 x v) as (_ & Ev & _). { unfold de_part in Hx. apply in_firstn in Hx. rewrite <- (firstn_skipn (p2_nwolves p) pop). apply in_app_iff. auto. }
  apply as_max_good. change (F1 z <= F1 x)%Q. rewrite <- Ev. exact Q1.
Qed.

Lemma p2_default r : respects fit -> no_sharing_trouble p -> attr = None ->
  p2_evolute expf cosf pwf m fit p attr ngen re drs xs = Some r ->
  1 <= p2_mu p (p2_nwolves p) -> 1 <= p2_mu p (p2_npop p) -> 1 <= p2_mu p (p2_nwhales p) ->
  length xs + ngen / re * survivors p <= 3 * (ngen / re) * p2_npop p + 1 ->
  never_worse m (pq_hist r) /\ (forall z, In z (offered xs (pq_pops r) (ngen / re)) -> as_good m (pq_y r) (fit z)).
Proof.
  intros Rf Sh Ea E M1 M2 M3 L. apply (p2_mono expf cosf pwf m fit p ngen re xs attr drs RD r Rf Sh E). subst attr. split; [|auto]. cbn [p2_size]. lia.
Qed.
End B.

Lemma default_case : let p := q_par NearestInt 4 5 5 (2#5) false in length q_xs + 4 / 2 * survivors p <= 3 * (4 / 2) * p2_npop p + 1 /\ 1 <= p2_mu p 5.
Proof. vm_compute. split; lia. Qed.
Lemma elite_case : keeps_ints (p2_method (q_par NearestInt 4 5 5 (2#5) false)) (p2_dims (q_par NearestInt 4 5 5 (2#5) false)).
Proof. left. reflexivity. Qed.
