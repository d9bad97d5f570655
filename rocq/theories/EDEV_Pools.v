From Coq Require Import List Arith ZArith QArith Lia Bool Permutation.
From Verif Require Import Base BaseFacts Opt_Model Opt_Facts Opt_Facts2 Pop_Proofs EDEV_Model EDEV_Spec EDEV_Proofs EDEV_Donors.
Import ListNotations.
Open Scope nat_scope.

Lemma ep_para_pools d spara gen rate pp k q rr : Permutation spara [0; 1; 2] -> Forall from_pools pp ->
  ep_para d spara gen rate pp k = Some (q, rr) -> from_pools q.
Proof.
  intros SP F H. unfold ep_para in H. destruct (_ && _ && _) in H.
  - apply bind_Some in H. destruct H as (q' & E & H). inversion H; subst. rewrite Forall_forall in F. apply F. eapply nth_error_In; eauto.
  - apply bind_Some in H. destruct H as (s & E1 & H). apply bind_Some in H. destruct H as (c & E2 & H).
    apply bind_Some in H. destruct H as (f & E3 & H). inversion H; subst. split; [|split].
    + apply nth_error_In in E1. apply (Permutation_in _ SP) in E1. simpl in *. lia.
    + apply nth_error_In in E2. exact E2.
    + apply nth_error_In in E3. exact E3.
Qed.
Lemma np_delete_incl {A} (l : list A) idx r : np_delete l idx = Some r -> incl r l.
Proof.
  unfold np_delete. destruct (forallb _ _); [|discriminate]. intros H. inversion H; subst. intros x Hx.
  apply in_map_iff in Hx. destruct Hx as ([i y] & <- & Hy). apply filter_In in Hy. destruct Hy as [Hy _]. eapply in_combine_r; eauto.
Qed.
Lemma ep_select_pools steps : forall s sel out, Forall from_pools (s_pp s) -> Forall (fun e => from_pools (fst (snd e))) steps ->
  ep_select s steps = (sel, out) -> Forall from_pools (s_pp sel).
Proof.
  induction steps as [|[[xv uf] [q rr]] l IH]; intros s sel out F1 F2 E; cbn [ep_select] in E; [inversion E; subst; auto|].
  inversion F2 as [|? ? Hq F2']; subst. destruct (ep_step s (xv, uf, (q, rr))) as [s1 x1] eqn:E1. destruct (ep_select s1 l) as [s2 o2] eqn:E2.
  inversion E; subst. refine (IH _ _ _ _ F2' E2). unfold ep_step in E1. destruct (Qltb (snd uf) (snd xv)); inversion E1; subst; cbn [s_pp]; auto.
  apply Forall_app. split; auto.
Qed.
Lemma gen_pools expf m fit ds mt s cap ngen ng spara dr gen st st' : Permutation spara [0; 1; 2] -> Forall from_pools (x_pp st) ->
  ed_gen expf m fit ds mt s cap ngen ng spara dr gen st = Some st' -> Forall from_pools (x_pp st').
Proof.
  intros SP F H. unfold ed_gen in H.
  repeat match type of H with
  | bind _ _ = Some _ => apply bind_Some in H; let x := fresh "v" in let E := fresh "E" in destruct H as (x & E & H); try (destruct x as [? ?])
  | (let '(_, _) := ?e in _) = Some _ => let E := fresh "ES" in destruct e as [? ?] eqn:E
  end.
  inversion H; subst. cbn [x_pp].
  match goal with E : np_delete _ _ = Some _ |- _ => apply np_delete_incl in E; rename E into ND end.
  match goal with E : traverse (fun k _ => ep_para _ _ _ _ _ k) _ _ = Some ?p |- _ => rename E into T; set (pars := p) in * end.
  match goal with E : ep_select _ _ = (?a, _) |- _ => rename E into SE; set (sel := a) in * end.
  assert (FP : Forall (fun q => from_pools (fst q)) pars).
  { apply Forall_forall. intros [qq rr] Hq. apply In_nth_error in Hq. destruct Hq as (i & Ei).
    destruct (traverse_spec _ _ _ _ T) as (L & Z).
    match type of T with traverse _ _ ?l = _ => destruct (nth_of_lt l i) as (x & Ex) end. { rewrite <- L. apply nth_error_Some. congruence. }
    destruct (Z _ _ Ex) as (b & Eb & Hb). rewrite Ei in Eb. inversion Eb; subst. eapply ep_para_pools; eauto. }
  assert (FS : Forall from_pools (s_pp sel)).
  { eapply ep_select_pools; [| |exact SE]; cbn [s_pp]; auto. apply Forall_forall. intros [e qq] He. cbn [snd fst].
    apply in_combine_r in He. rewrite Forall_forall in FP. apply (FP qq He). }
  apply Forall_forall. intros x Hx. rewrite Forall_forall in FS. auto.
Qed.
