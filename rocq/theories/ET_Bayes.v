(** Proofs about the Bayesian tuner. *)
From Coq Require Import String List Arith ZArith QArith Bool Lia Lqa Permutation.
From Verif Require Import Base BaseFacts Space_Model Space_Spec Opt_Model Data_Proofs Tune_Model Tune_Spec Tune_Proofs ET_Model ET_Spec ET_Proofs.
Import ListNotations.
Open Scope nat_scope.

Lemma Forall2_nth_error {A B} (R : A -> B -> Prop) : forall l r, Forall2 R l r <-> length l = length r /\ forall i a b, nth_error l i = Some a -> nth_error r i = Some b -> R a b.
Proof.
  induction l as [|a l IH]; intros r; split.
  - intros H. inversion H. split; auto. intros [|i] a b E; discriminate.
  - intros [L _]. destruct r; [constructor|discriminate].
  - intros H. inversion H as [|a' b' l' r' H1 H2]; subst. apply IH in H2. destruct H2 as [L H2]. split; [cbn; lia|].
    intros [|i] x y Ex Ey; cbn [nth_error] in *; [congruence|eauto].
  - intros [L H]. destruct r as [|b r]; [discriminate|]. constructor; [apply (H 0); reflexivity|]. apply IH. split; [cbn in L; lia|]. intros i x y Ex Ey. apply (H (S i)); auto.
Qed.
Lemma dget_app_first {A} (d e : list (string * A)) k a : dget d k = Some a -> dget (d ++ e) k = Some a.
Proof. induction d as [|(k' & a') d IH]; cbn [dget app]; [discriminate|]. destruct (String.eqb k' k); auto. Qed.

Lemma call_named_incl f kw q : call_named f kw = Some q -> incl (map fst kw) (f_args f).
Proof.
  unfold call_named. destruct (forallb _ _) eqn:E; [|discriminate]. intros _ k Hk.
  rewrite forallb_forall in E. specialize (E k Hk). destruct (in_dec string_dec k (f_args f)); [auto|discriminate].
Qed.

Lemma lookup_named names x a (ds : list (string * val)) : NoDup names -> length x = length names -> In a names ->
  exists j v, nth_error names j = Some a /\ nth_error x j = Some v /\ dget (combine names x ++ ds) a = Some v.
Proof.
  intros N L H. apply In_nth_error in H. destruct H as (j & Hj). assert (Lj : j < length names) by (apply nth_error_Some; congruence).
  destruct (nth_error x j) as [v|] eqn:E; [|apply nth_error_None in E; lia]. exists j, v. split; auto. split; auto.
  apply dget_app_first. eapply dget_combine; eauto.
Qed.

Lemma map_fst_comb {A B} : forall (l : list A) (r : list B), length r = length l -> map fst (combine l r) = l.
Proof. induction l as [|a l IH]; intros [|b r] H; cbn in *; try discriminate; auto. f_equal. apply IH. lia. Qed.

Lemma call_named_spec f names x q : NoDup names -> length x = length names -> Permutation names (f_args f) ->
  (call_named f (combine names x) = Some q <-> exists vs, reorder names (f_args f) x vs /\ f_body f vs = Some q).
Proof.
  intros N L P. unfold call_named. rewrite map_fst_comb by auto.
  assert (E : forallb (fun k => if in_dec string_dec k (f_args f) then true else false) names = true).
  { rewrite forallb_forall. intros k Hk. destruct (in_dec string_dec k (f_args f)); auto. exfalso. apply n. eapply Permutation_in; eauto. }
  rewrite E. set (tr := traverse _ _ _).
  assert (K : forall vs, tr = Some vs <-> reorder names (f_args f) x vs).
  { intros vs. unfold tr. rewrite (traverse_F2 (fun a => dget (combine names x ++ f_defaults f) a)). unfold reorder.
    assert (Hin : forall a, In a (f_args f) -> In a names) by (intros a Ha; eapply Permutation_in; [apply Permutation_sym; exact P|exact Ha]).
    revert Hin. generalize (f_args f) as args. intros args Hin. split; intros F.
    - induction F as [|a v args' vs' H F IH]; constructor.
      + destruct (lookup_named names x a (f_defaults f) N L (Hin a (or_introl eq_refl))) as (j & v' & J1 & J2 & J3). rewrite J3 in H. injection H as <-. eauto.
      + apply IH. intros b Hb. apply Hin. right; auto.
    - induction F as [|a v args' vs' H F IH]; constructor.
      + destruct H as (j & J1 & J2). apply dget_app_first. eapply dget_combine; eauto.
      + apply IH. intros b Hb. apply Hin. right; auto. }
  split.
  - destruct tr as [vs|]; [|discriminate]. intros H. exists vs. split; auto. apply K; auto.
  - intros (vs & H1 & H2). apply K in H1. rewrite H1. exact H2.
Qed.
Lemma reorder_exists names args x : Permutation names args -> length x = length names -> exists vs, reorder names args x vs.
Proof.
  intros P L. assert (Hin : incl args names) by (intros a Ha; eapply Permutation_in; [apply Permutation_sym; exact P|exact Ha]). clear P.
  induction args as [|a args IH]; [exists []; constructor|]. destruct IH as (vs & H); [intros b Hb; apply Hin; right; auto|].
  pose proof (Hin a (or_introl eq_refl)) as Ha. apply In_nth_error in Ha. destruct Ha as (j & Hj).
  assert (Lj : j < length names) by (apply nth_error_Some; congruence).
  destruct (nth_error x j) as [v|] eqn:E; [|apply nth_error_None in E; lia]. exists (v :: vs). constructor; eauto.
Qed.
Lemma reorder_id names x : length x = length names -> reorder names names x x.
Proof.
  intros L. unfold reorder. apply Forall2_nth_error. split; [auto|]. intros i a v Ha Hv. eauto.
Qed.

Lemma cost_invol m q : as_cost m (as_cost m q) == q.
Proof. destruct m; cbn; [reflexivity|]. lra. Qed.

Section By.
Context (search : option nat -> (list val -> option Q) -> nat -> list (list val)) (g : list (string * rtype)) (f : func) (m : mode).
Hypothesis SO : search_ok search g.
Hypothesis ND : NoDup (map fst g).
Notation obj := (by_objective m g f).

Lemma by_search_spec s n xs ys : by_search search m g f s n = Some (xs, ys) -> length xs = n /\ Forall2 (fun x y => obj x = Some y) xs ys /\ xs = search s obj n.
Proof.
  unfold by_search. destruct (traverse _ _ _) as [ys'|] eqn:E; [|discriminate]. intros H. injection H as <- <-.
  split; [apply SO|]. split; auto. apply (traverse_F2 obj) in E. exact E.
Qed.

Lemma by_flat n : forall seeds rs, Forall2 (fun s r => by_search search m g f s n = Some r) seeds rs ->
  length (flat_map fst rs) = length seeds * n /\ Forall2 (fun x y => obj x = Some y) (flat_map fst rs) (flat_map snd rs) /\
  forall x, In x (flat_map fst rs) -> exists s, In x (search s obj n).
Proof.
  induction 1 as [|s (xs & ys) seeds rs H F IH]; cbn [flat_map length fst snd].
  - repeat split; auto. intros x [].
  - destruct (by_search_spec s n xs ys H) as (A & B & C). destruct IH as (I1 & I2 & I3). rewrite app_length, A, I1. split; [lia|]. split; [apply Forall2_app; auto|].
    intros x Hx. apply in_app_iff in Hx. destruct Hx as [Hx|Hx]; auto. exists s. rewrite <- C. auto.
Qed.

Lemma seeds_length seed ncores : length (seeds_of seed ncores) = Nat.max 1 ncores.
Proof. unfold seeds_of. destruct (Nat.ltb_spec 1 ncores); cbn [length]; rewrite ?map_length, ?seq_length; lia. Qed.
Lemma by_cases_max n : by_cases n = Nat.max 11 n.
Proof. unfold by_cases. destruct (Nat.ltb_spec n 11); lia. Qed.

Lemma by_sound ncases seed ncores xs ys : bayestune search g f m ncases seed ncores = Some (xs, ys) ->
  Permutation (map fst g) (f_args f) /\ length xs = Nat.max 1 ncores * Nat.max 11 ncases /\ length ys = length xs /\
  forall i x y, nth_error xs i = Some x -> nth_error ys i = Some y ->
    Forall2 (fun kr v => allowed (snd kr) v) g x /\ exists vs q, reorder (map fst g) (f_args f) x vs /\ f_body f vs = Some q /\ (y == q)%Q.
Proof.
  unfold bayestune. destruct (by_dims g); [|discriminate]. fold (seeds_of seed ncores). intros H.
  destruct (traverse _ _ _) as [rs|] eqn:E; [|discriminate]. apply (traverse_F2 (fun s => by_search search m g f s (by_cases ncases))) in E.
  destruct (by_flat _ _ _ E) as (A & B & C). cbv zeta in H. destruct (forallb _ _) eqn:FB; [|discriminate]. injection H as <- <-.
  rewrite forallb_forall in FB.
  assert (AL : forall x, In x (flat_map fst rs) -> Forall2 (fun kr v => allowed (snd kr) v) g x).
  { intros x Hx. destruct (C x Hx) as (s & Hs). destruct (SO s obj (by_cases ncases)) as [_ F]. rewrite Forall_forall in F. auto. }
  assert (LX : forall x, In x (flat_map fst rs) -> length x = length g) by (intros x Hx; specialize (AL x Hx); apply Forall2_length in AL; auto).
  assert (P : Permutation (map fst g) (f_args f)).
  { destruct (flat_map fst rs) as [|x r] eqn:EX.
    - exfalso. rewrite seeds_length, by_cases_max in A. cbn [length] in A. assert (1 * 11 <= Nat.max 1 ncores * Nat.max 11 ncases) by (apply Nat.mul_le_mono; lia). lia.
    - inversion B as [|x' y' r' ys' B1 B2]; subst. unfold by_objective in B1. destruct (call_named f _) as [q|] eqn:EC; [|discriminate].
      apply call_named_incl in EC. rewrite map_fst_comb in EC by (rewrite map_length; apply LX; left; auto).
      apply NoDup_Permutation_bis; auto. rewrite map_length, <- (LX x (or_introl eq_refl)).
      specialize (FB x (or_introl eq_refl)). apply Nat.eqb_eq in FB. lia. }
  split; auto. split; [rewrite A, seeds_length, by_cases_max; auto|]. split; [rewrite map_length; symmetry; eapply Forall2_length; exact B|].
  intros i x y Hx Hy. split; [apply AL; eapply nth_error_In; eauto|]. rewrite nth_error_map in Hy. destruct (nth_error (flat_map snd rs) i) as [y0|] eqn:Ey; [|discriminate].
  injection Hy as <-. apply Forall2_nth_error in B. destruct B as [_ B]. specialize (B i x y0 Hx Ey). unfold by_objective in B.
  destruct (call_named f _) as [q|] eqn:EC; [|discriminate]. injection B as <-.
  apply call_named_spec in EC; auto; [|rewrite map_length; apply LX; eapply nth_error_In; eauto].
  destruct EC as (vs & V1 & V2). exists vs, q. repeat split; auto. apply cost_invol.
Qed.

Lemma by_total ncases seed ncores : Forall (fun kr => snd kr <> ROther) g -> Permutation (map fst g) (f_args f) -> (forall vs, f_body f vs <> None) ->
  exists r, bayestune search g f m ncases seed ncores = Some r.
Proof.
  intros W P T. unfold bayestune, by_dims.
  assert (E : forallb (fun kr => match snd kr with ROther => false | _ => true end) g = true).
  { rewrite forallb_forall. rewrite Forall_forall in W. intros kr H. specialize (W kr H). destruct (snd kr); auto. }
  rewrite E. fold (seeds_of seed ncores).
  assert (OB : forall s n x, In x (search s obj n) -> exists y, obj x = Some y).
  { intros s n x Hx. destruct (SO s obj n) as [_ F]. rewrite Forall_forall in F. specialize (F x Hx). apply Forall2_length in F.
    destruct (reorder_exists (map fst g) (f_args f) x P) as (vs & V); [rewrite map_length; auto|].
    destruct (f_body f vs) as [q|] eqn:EB; [|exfalso; apply (T vs EB)]. exists (as_cost m q). unfold by_objective.
    assert (EC : call_named f (combine (map fst g) x) = Some q) by (apply call_named_spec; eauto; rewrite map_length; auto). rewrite EC. reflexivity. }
  assert (SR : forall s, exists r, by_search search m g f s (by_cases ncases) = Some r).
  { intros s. unfold by_search. destruct (traverse_some (fun _ x => obj x) (fun _ _ => True) (search s obj (by_cases ncases))) with (i := 0) as (ys & E1 & _).
    - intros i x Hx. destruct (OB s _ x Hx) as (y & Hy). eauto.
    - rewrite E1. eauto. }
  destruct (traverse_some (fun _ s => by_search search m g f s (by_cases ncases)) (fun _ _ => True) (seeds_of seed ncores)) with (i := 0) as (rs & E1 & _).
  { intros i s _. destruct (SR s) as (r & Hr). eauto. }
  rewrite E1. cbv zeta. apply (traverse_F2 (fun s => by_search search m g f s (by_cases ncases))) in E1. destruct (by_flat _ _ _ E1) as (_ & _ & C).
  assert (FB : forallb (fun x => length x =? length (f_args f)) (flat_map fst rs) = true).
  { rewrite forallb_forall. intros x Hx. apply Nat.eqb_eq. destruct (C x Hx) as (s & Hs). destruct (SO s obj (by_cases ncases)) as [_ F]. rewrite Forall_forall in F.
    specialize (F x Hs). apply Forall2_length in F. rewrite <- F, <- (map_length fst g). apply Permutation_length. exact P. }
  rewrite FB. eauto.
Qed.

(** An argument with a default value that is not tuned: the table cannot be made. *)
Lemma by_default ncases seed ncores : ~ Permutation (map fst g) (f_args f) -> bayestune search g f m ncases seed ncores = None.
Proof.
  intros N. destruct (bayestune search g f m ncases seed ncores) as [[xs ys]|] eqn:E; auto. apply by_sound in E. destruct E as [P _]. contradiction.
Qed.

(** A case on which the fitness raises. *)
Lemma by_failure ncases seed ncores s x : In s (seeds_of seed ncores) -> In x (search s obj (Nat.max 11 ncases)) ->
  call_named f (combine (map fst g) x) = None -> bayestune search g f m ncases seed ncores = None.
Proof.
  intros Hs Hx EC. destruct (bayestune search g f m ncases seed ncores) as [r|] eqn:E; auto. exfalso. unfold bayestune in E.
  destruct (by_dims g); [|discriminate]. fold (seeds_of seed ncores) in E.
  destruct (traverse _ _ _) as [rs|] eqn:E1; [|discriminate]. apply (traverse_F2 (fun s => by_search search m g f s (by_cases ncases))) in E1.
  clear E. induction E1 as [|s' r' ss rs' H1 F IH]; [destruct Hs|]. destruct Hs as [->|Hs]; [|auto].
  destruct r' as [xs ys]. destruct (by_search_spec _ _ _ _ H1) as (_ & B & ->). rewrite by_cases_max in B.
  apply In_nth_error in Hx. destruct Hx as (i & Hi). apply Forall2_nth_error in B. destruct B as [LB B].
  destruct (nth_error ys i) as [y|] eqn:Ey.
  - specialize (B i x y Hi Ey). unfold by_objective in B. rewrite EC in B. discriminate.
  - apply nth_error_None in Ey. assert (i < length (search s obj (Nat.max 11 ncases))) by (apply nth_error_Some; congruence). lia.
Qed.

(** The columns are named after the arguments, the values are those of the hyperparameters in the order of the dictionary. *)
Lemma by_columns ncases seed ncores xs ys : ~ In "score"%string (f_args f) -> bayestune search g f m ncases seed ncores = Some (xs, ys) ->
  map fst (by_table f (xs, ys)) = f_args f ++ ["score"%string] /\ dget (by_table f (xs, ys)) "score" = Some (map CScore ys) /\
  forall j a k r, nth_error (f_args f) j = Some a -> nth_error g j = Some (k, r) -> exists col, dget (by_table f (xs, ys)) a = Some col /\ length col = length xs /\
    forall i x v, nth_error xs i = Some x -> nth_error x j = Some v -> nth_error col i = Some (CVal v) /\ allowed r v.
Proof.
  intros NS H. destruct (by_sound _ _ _ _ _ H) as (P & _ & LY & A). assert (N2 : NoDup (f_args f)) by (eapply Permutation_NoDup; eauto).
  destruct (frame_ok (f_args f) xs (map CScore ys) N2 NS) as (F1 & F2 & F3). split; auto. split; auto.
  intros j a k r Ha Hg. destruct (F3 j a Ha) as (col & C1 & C2 & C3). exists col. split; auto. split; auto. intros i x v Hx Hv. split; [eauto|].
  destruct (nth_error ys i) as [y|] eqn:Ey; [|apply nth_error_None in Ey; assert (i < length xs) by (apply nth_error_Some; congruence); lia].
  destruct (A i x y Hx Ey) as (B & _). apply Forall2_nth_error in B. destruct B as [_ B]. exact (B j (k, r) v Hg Hv).
Qed.

Lemma by_in_order ncases seed ncores xs ys : f_args f = map fst g -> bayestune search g f m ncases seed ncores = Some (xs, ys) ->
  forall i x y, nth_error xs i = Some x -> nth_error ys i = Some y -> exists q, f_body f x = Some q /\ (y == q)%Q.
Proof.
  intros EA H i x y Hx Hy. destruct (by_sound _ _ _ _ _ H) as (_ & _ & _ & A). destruct (A i x y Hx Hy) as (B & vs & q & V1 & V2 & V3).
  exists q. split; auto. rewrite EA in V1. assert (vs = x); [|subst; auto]. unfold reorder in V1.
  apply Forall2_length in B. apply nth_ext_eq. intros j. apply Forall2_nth_error in V1. destruct V1 as [L V].
  destruct (nth_error vs j) as [v|] eqn:Ev.
  - assert (Hj : j < length (map fst g)) by (rewrite L; apply nth_error_Some; congruence).
    destruct (nth_error (map fst g) j) as [a|] eqn:Ea; [|apply nth_error_None in Ea; lia].
    destruct (V j a v Ea Ev) as (j' & J1 & J2). assert (j' = j); [|subst; auto]. apply (proj1 (NoDup_nth_error (map fst g)) ND); [apply nth_error_Some; congruence|congruence].
  - symmetry. apply nth_error_None. apply nth_error_None in Ev. rewrite map_length in L. lia.
Qed.
End By.
