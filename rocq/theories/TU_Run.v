From Coq Require Import Ascii String List Arith ZArith QArith Bool Permutation Sorted Lia.
From Verif Require Import IP_Model TU_Model TU_Spec TU_Proofs.
Import ListNotations.
Open Scope list_scope.
Open Scope nat_scope.

Section Rows.
  Context {V : Type}.
  Variable rewards : nat -> option (list Q).
  Variable n_last : nat.
  Notation obj := (case_object (V := V) rewards n_last).

  Lemma insert_row_perm : forall (x : row V) l, Permutation (x :: l) (insert_row x l).
  Proof. intros x; induction l as [|y l IH]; cbn [insert_row]; [reflexivity|]. destruct (rid x <=? rid y); [reflexivity|]. rewrite perm_swap. apply perm_skip, IH. Qed.
  Lemma by_case_perm : forall l : list (row V), Permutation l (by_case l).
  Proof. induction l as [|x l IH]; cbn [by_case fold_right]; [reflexivity|]. rewrite <- insert_row_perm. apply perm_skip, IH. Qed.
  Definition lt_row (a b : row V) : Prop := rid a < rid b.
  Lemma insert_row_sorted : forall (x : row V) l, StronglySorted lt_row l -> ~ In (rid x) (map rid l) -> StronglySorted lt_row (insert_row x l).
  Proof.
    intros x; induction l as [|y l IH]; intros H N; cbn [insert_row]; [repeat constructor|].
    inversion H; subst. cbn [map In] in N. destruct (rid x <=? rid y) eqn:E.
    - apply Nat.leb_le in E. constructor; [exact H|]. assert (rid x < rid y) by lia. constructor; [exact H0|].
      revert H3. apply Forall_impl. intros a Ha. unfold lt_row in *. lia.
    - apply Nat.leb_gt in E. constructor; [apply IH; [assumption|tauto]|].
      apply Forall_forall. intros a Ha. apply (Permutation_in _ (Permutation_sym (insert_row_perm x l))) in Ha. destruct Ha as [<-|Ha]; [exact E|].
      exact (proj1 (Forall_forall _ _) H3 a Ha).
  Qed.
  Lemma by_case_sorted : forall l : list (row V), NoDup (map rid l) -> StronglySorted lt_row (by_case l).
  Proof.
    induction l as [|x l IH]; intros N; cbn [by_case fold_right]; [constructor|]. inversion N; subst. apply insert_row_sorted; [apply IH; assumption|].
    intros E. apply H1. apply (Permutation_in _ (Permutation_map rid (Permutation_sym (by_case_perm l))) E).
  Qed.
  Lemma sorted_unique : forall a b : list (row V), Permutation a b -> StronglySorted lt_row a -> StronglySorted lt_row b -> a = b.
  Proof.
    induction a as [|x a IH]; intros b P Ha Hb; [apply Permutation_nil in P; subst; reflexivity|].
    destruct b as [|y b]; [apply Permutation_sym, Permutation_nil in P; discriminate|].
    inversion Ha; inversion Hb; subst.
    assert (E : x = y).
    { pose proof (Permutation_in _ P (or_introl eq_refl)) as Ex. pose proof (Permutation_in _ (Permutation_sym P) (or_introl eq_refl)) as Ey.
      destruct Ex as [Ex|Ex]; [symmetry; exact Ex|]. destruct Ey as [Ey|Ey]; [exact Ey|]. exfalso.
      pose proof (proj1 (Forall_forall _ _) H2 y Ey). pose proof (proj1 (Forall_forall _ _) H6 x Ex). unfold lt_row in *. lia. }
    subst y. f_equal. apply IH; [apply (Permutation_cons_inv P)|assumption..].
  Qed.
  Lemma opt_list_perm : forall A (a b : list (option A)), Permutation a b -> Permutation (opt_list a) (opt_list b).
  Proof.
    intros A a b P; induction P; cbn [opt_list].
    - reflexivity.
    - destruct x; [apply perm_skip|]; exact IHP.
    - destruct x, y; cbn [opt_list]; try reflexivity. apply perm_swap.
    - transitivity (opt_list l'); assumption.
  Qed.
  Lemma obj_id : forall x v r, obj x v = Some r -> rid r = x /\ rvals r = v.
  Proof. intros x v r H. unfold case_object in H. destruct (rewards x) as [[|q l]|]; try discriminate. injection H as <-. split; reflexivity. Qed.
  Lemma rows_sorted : forall (combos : list (list V)) s, StronglySorted lt_row (opt_list (map (fun c => obj (fst c) (snd c)) (combine (seq s (List.length combos)) combos)))
    /\ Forall (fun r => s <= rid r) (opt_list (map (fun c => obj (fst c) (snd c)) (combine (seq s (List.length combos)) combos))).
  Proof.
    induction combos as [|c combos IH]; intros s; cbn [List.length seq combine map opt_list fst snd]; [split; constructor|].
    destruct (IH (S s)) as [H1 H2]. destruct (obj s c) as [r|] eqn:E.
    - apply obj_id in E as [E _]. split; constructor; try assumption; try lia.
      + revert H2. apply Forall_impl. intros a Ha. unfold lt_row. lia.
      + revert H2. apply Forall_impl. intros a Ha. lia.
    - split; [exact H1|]. revert H2. apply Forall_impl. intros a Ha. lia.
  Qed.
  Lemma sorted_nodup : forall l : list (row V), StronglySorted lt_row l -> NoDup (map rid l).
  Proof.
    induction l as [|x l IH]; intros H; [constructor|]. inversion H; subst. cbn [map]. constructor; [|apply IH; assumption].
    intros E. apply in_map_iff in E as (y & E & Hy). pose proof (proj1 (Forall_forall _ _) H3 y Hy). unfold lt_row in *. lia.
  Qed.
  Theorem run_log : forall combos finish, let cases := combine (seq 1 (List.length combos)) combos in Permutation cases finish ->
    fst (run_cases rewards n_last cases finish) = opt_list (map (fun c => obj (fst c) (snd c)) cases)
    /\ List.length (fst (run_cases rewards n_last cases finish)) + snd (run_cases rewards n_last cases finish) = List.length combos.
  Proof.
    intros combos finish cases P. destruct (rows_sorted combos 1) as [S _]. fold cases in S.
    assert (E : fst (run_cases rewards n_last cases finish) = opt_list (map (fun c => obj (fst c) (snd c)) cases)).
    { unfold run_cases. cbn [fst].
      assert (P' : Permutation (opt_list (map (fun c => obj (fst c) (snd c)) cases)) (opt_list (map (fun c => obj (fst c) (snd c)) finish))) by (apply opt_list_perm, Permutation_map, P).
      apply sorted_unique; [| |exact S].
      - rewrite <- by_case_perm. symmetry. exact P'.
      - apply by_case_sorted. apply (Permutation_NoDup (Permutation_map rid P')). apply sorted_nodup, S. }
    split; [exact E|]. rewrite E. unfold run_cases. cbn [snd].
    assert (L : List.length combos = List.length cases) by (unfold cases; rewrite combine_length, seq_length; lia).
    rewrite L. clear. induction cases as [|c cs IH]; [reflexivity|]. cbn [map opt_list filter]. destruct (obj (fst c) (snd c)); cbn [List.length]; lia.
  Qed.

  Lemma qmax_ge : forall l x, (x <= qmax x l)%Q.
  Proof.
    induction l as [|y l IH]; intros x; cbn [qmax]; [apply Qle_refl|]. destruct (Qle_bool x y) eqn:E; [|apply IH].
    apply Qle_bool_iff in E. eapply Qle_trans; [exact E|apply IH].
  Qed.
  Lemma qmax_all : forall l x y, In y (x :: l) -> (y <= qmax x l)%Q.
  Proof.
    induction l as [|z l IH]; intros x y H; cbn [qmax].
    - destruct H as [<-|[]]. apply Qle_refl.
    - destruct (Qle_bool x z) eqn:E.
      + destruct H as [<-|H]; [apply Qle_bool_iff in E; eapply Qle_trans; [exact E|apply qmax_ge]|apply IH; exact H].
      + destruct H as [<-|[<-|H]]; [apply qmax_ge| |apply IH; right; exact H].
        eapply Qle_trans; [|apply qmax_ge]. apply Qlt_le_weak, Qnot_le_lt. intros H. apply Qle_bool_iff in H. congruence.
  Qed.
  Lemma qmax_in : forall l x, In (qmax x l) (x :: l).
  Proof.
    induction l as [|z l IH]; intros x; cbn [qmax]; [left; reflexivity|]. destruct (Qle_bool x z).
    - right. apply IH.
    - destruct (IH x) as [H|H]; [left; exact H|right; right; exact H].
  Qed.
  Theorem row_value : forall x v early late, rewards x = Some (early ++ late) -> late <> [] -> List.length late = n_last \/ early = [] /\ (List.length late <= n_last \/ n_last = 0) ->
    exists r, obj x v = Some r /\ rid r = x /\ rvals r = v /\ rmean r = (qsum late / inject_Z (Z.of_nat (List.length late)))%Q
      /\ In (rmax r) (early ++ late) /\ (forall q, In q (early ++ late) -> (q <= rmax r)%Q).
  Proof.
    intros x v early late H N L. unfold case_object. rewrite H. destruct (early ++ late) as [|q0 l] eqn:E.
    - destruct early, late; cbn in E; congruence.
    - eexists. split; [reflexivity|]. cbn [rid rvals rmean rmax]. repeat split; [|apply qmax_in|intros q Hq; apply qmax_all, Hq].
      rewrite <- E. unfold qmean. replace (last_rewards n_last (early ++ late)) with late; [reflexivity|]. unfold last_rewards.
      destruct L as [L|[-> L]].
      + replace (n_last =? 0) with false by (symmetry; apply Nat.eqb_neq; destruct late; cbn in *; [congruence|lia]).
        rewrite app_length. replace (List.length early + List.length late - n_last) with (List.length early) by lia.
        rewrite skipn_app, skipn_all, Nat.sub_diag. reflexivity.
      + cbn [app]. destruct (n_last =? 0) eqn:Z; [reflexivity|]. apply Nat.eqb_neq in Z. replace (List.length late - n_last) with 0 by lia. reflexivity.
  Qed.
  Theorem best_first : forall (rows ranked : list (row V)) r rest, Permutation rows ranked -> StronglySorted (fun a b => (rmean b <= rmean a)%Q) ranked ->
    top ranked = r :: rest -> In r rows /\ forall s, In s rows -> (rmean s <= rmean r)%Q.
  Proof.
    intros rows ranked r rest P S H. destruct ranked as [|r0 l]; [discriminate|]. cbn [top firstn] in H. injection H as <- _. inversion S; subst. split.
    - apply (Permutation_in _ (Permutation_sym P)). left; reflexivity.
    - intros s Hs. apply (Permutation_in _ P) in Hs as [<-|Hs]; [apply Qle_refl|]. exact (proj1 (Forall_forall _ _) H2 s Hs).
  Qed.
End Rows.
