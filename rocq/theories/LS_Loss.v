(** Proofs about the losses. *)
From Coq Require Import String List Arith ZArith Reals Lra Lia Permutation.
From Verif Require Import PD_Model PD_Spec PD_Proofs LS_Model LS_Spec.
Import ListNotations.
Open Scope R_scope.

(** ** Huber *)
Lemma huber_facts : forall d x, 0 < d -> 0 <= huber d x /\ (huber d x = 0 <-> x = 0) /\ huber d x <= x * x / 2 /\ huber d x <= d * Rabs x /\ huber d (- x) = huber d x.
Proof.
  intros d x D. unfold huber. rewrite Rabs_Ropp. pose proof (Rabs_pos x) as A.
  assert (S0 : x * x = Rabs x * Rabs x) by (rewrite <- Rabs_mult; symmetry; apply Rabs_pos_eq; apply Rle_0_sqr).
  destruct (Rlt_dec (Rabs x) d) as [H|H].
  - replace (- x * - x) with (x * x) by ring. assert (0 <= x * x) by apply Rle_0_sqr.
    split; [lra|]. split; [|split; [lra|split; [nra|reflexivity]]]. split; [|intros E; subst x; ring].
    intros E. assert (Z : x * x = 0) by lra. apply Rmult_integral in Z. destruct Z; assumption.
  - split; [nra|]. split; [|split; [nra|split; [nra|reflexivity]]]. split; intros E; exfalso; [nra|]. subst x. rewrite Rabs_R0 in H. lra.
Qed.
Lemma derive_local : forall f g x l eps, 0 < eps -> (forall y, Rabs (y - x) < eps -> f y = g y) -> derivable_pt_lim g x l -> derivable_pt_lim f x l.
Proof.
  intros f g x l eps E H D e He. destruct (D e He) as [d Hd]. assert (M : 0 < Rmin d eps) by (apply Rmin_pos; [apply cond_pos|exact E]).
  exists (mkposreal _ M). intros h Hh Lh. cbn in Lh. rewrite (H (x + h)), (H x).
  - apply Hd; [exact Hh|]. eapply Rlt_le_trans; [exact Lh|apply Rmin_l].
  - replace (x - x) with 0 by ring. rewrite Rabs_R0. exact E.
  - replace (x + h - x) with h by ring. eapply Rlt_le_trans; [exact Lh|apply Rmin_r].
Qed.
Lemma derive_ext : forall f g x l, (forall y, f y = g y) -> derivable_pt_lim g x l -> derivable_pt_lim f x l.
Proof. intros f g x l H D. eapply (derive_local f g x l 1); [lra|intros; apply H|exact D]. Qed.
Lemma derive_half_square : forall x, derivable_pt_lim (fun y => y * y * (5 / 10)) x x.
Proof.
  intros x. eapply derive_ext with (g := mult_real_fct (5 / 10) (fun y => y * y)); [intros y; unfold mult_real_fct; ring|].
  replace x with (5 / 10 * (1 * x + x * 1)) at 2 by lra. apply derivable_pt_lim_scal. apply (derivable_pt_lim_mult id id); apply derivable_pt_lim_id.
Qed.
Lemma derive_affine : forall a b x, derivable_pt_lim (fun y => a * y + b) x a.
Proof.
  intros a b x. eapply derive_ext with (g := plus_fct (mult_real_fct a id) (fct_cte b)); [intros; reflexivity|].
  replace a with (a * 1 + 0) at 2 by ring. apply derivable_pt_lim_plus; [apply derivable_pt_lim_scal; apply derivable_pt_lim_id|apply derivable_pt_lim_const].
Qed.
(** Two functions that agree with f on either side and have the same value and slope at x. *)
Lemma derive_glue : forall f g h x l eps, 0 < eps -> f x = g x -> f x = h x -> (forall y, x - eps < y < x -> f y = g y) -> (forall y, x < y < x + eps -> f y = h y) ->
  derivable_pt_lim g x l -> derivable_pt_lim h x l -> derivable_pt_lim f x l.
Proof.
  intros f g h x l eps E G0 H0 L R Dg Dh e He. destruct (Dg e He) as [dg Hg]. destruct (Dh e He) as [dh Hh].
  assert (M : 0 < Rmin (Rmin dg dh) eps) by (apply Rmin_pos; [apply Rmin_pos; apply cond_pos|exact E]).
  exists (mkposreal _ M). intros k Hk Lk. cbn in Lk.
  assert (K1 : Rabs k < dg) by (eapply Rlt_le_trans; [exact Lk|]; eapply Rle_trans; [apply Rmin_l|apply Rmin_l]).
  assert (K2 : Rabs k < dh) by (eapply Rlt_le_trans; [exact Lk|]; eapply Rle_trans; [apply Rmin_l|apply Rmin_r]).
  assert (K3 : Rabs k < eps) by (eapply Rlt_le_trans; [exact Lk|apply Rmin_r]).
  destruct (Rlt_dec k 0) as [N|N].
  - rewrite L, G0; [apply Hg; assumption|]. unfold Rabs in K3. destruct (Rcase_abs k); lra.
  - rewrite R, H0; [apply Hh; assumption|]. unfold Rabs in K3. destruct (Rcase_abs k); lra.
Qed.
Lemma clip_within : forall x lo hi, lo <= hi -> kept_within x lo hi (clip x lo hi).
Proof. intros x lo hi H. unfold kept_within, clip, Rmax, Rmin. repeat destruct (Rle_dec _ _); repeat split; intros; lra. Qed.
Lemma clip_unique : forall x lo hi y, lo <= hi -> kept_within x lo hi y -> y = clip x lo hi.
Proof. intros x lo hi y H (A & B & C & D). unfold clip, Rmax, Rmin. repeat destruct (Rle_dec _ _); destruct (Rlt_dec x lo); destruct (Rlt_dec hi x); try rewrite C by assumption; try rewrite D by assumption; try rewrite B by lra; lra. Qed.
Lemma huber_inside : forall d x, - d < x < d -> huber d x = x * x * (5 / 10).
Proof. intros d x H. unfold huber. destruct (Rlt_dec (Rabs x) d) as [A|A]; [reflexivity|]. exfalso. apply A. apply Rabs_def1; lra. Qed.
Lemma huber_right : forall d x, 0 < d -> d <= x -> huber d x = d * x + - (5 / 10 * d * d).
Proof. intros d x D H. unfold huber. rewrite Rabs_pos_eq by lra. destruct (Rlt_dec x d); [lra|]. ring. Qed.
Lemma huber_left : forall d x, 0 < d -> x <= - d -> huber d x = - d * x + - (5 / 10 * d * d).
Proof. intros d x D H. unfold huber. rewrite Rabs_left1 by lra. destruct (Rlt_dec (- x) d); [lra|]. ring. Qed.
Lemma huber_slope : forall d x, 0 < d -> derivable_pt_lim (huber d) x (clip x (- d) d).
Proof.
  intros d x D. destruct (Rtotal_order x d) as [L|[E|G]]; [destruct (Rtotal_order x (- d)) as [L'|[E'|G']]|subst x|].
  - rewrite (proj1 (proj2 (proj2 (clip_within x (- d) d ltac:(lra)))) L').
    eapply derive_local with (eps := - d - x) (g := fun y => - d * y + - (5 / 10 * d * d)); [lra| |apply derive_affine].
    intros y Hy. apply huber_left; [exact D|]. apply Rabs_def2 in Hy. lra.
  - subst x. rewrite (proj1 (proj2 (clip_within (- d) (- d) d ltac:(lra))) ltac:(lra)).
    eapply derive_glue with (eps := d) (g := fun y => - d * y + - (5 / 10 * d * d)) (h := fun y => y * y * (5 / 10)); [exact D| | | | | |].
    + apply huber_left; lra.
    + rewrite huber_left by lra. lra.
    + intros y Hy. apply huber_left; lra.
    + intros y Hy. apply huber_inside; lra.
    + apply derive_affine.
    + apply derive_half_square.
  - rewrite (proj1 (proj2 (clip_within x (- d) d ltac:(lra))) ltac:(lra)).
    eapply derive_local with (eps := Rmin (x - - d) (d - x)) (g := fun y => y * y * (5 / 10)); [apply Rmin_pos; lra| |apply derive_half_square].
    intros y Hy. apply huber_inside. pose proof (Rmin_l (x - - d) (d - x)). pose proof (Rmin_r (x - - d) (d - x)). apply Rabs_def2 in Hy. lra.
  - rewrite (proj1 (proj2 (clip_within d (- d) d ltac:(lra))) ltac:(lra)).
    eapply derive_glue with (eps := d) (h := fun y => d * y + - (5 / 10 * d * d)) (g := fun y => y * y * (5 / 10)); [exact D| | | | | |].
    + rewrite huber_right by lra. lra.
    + apply huber_right; lra.
    + intros y Hy. apply huber_inside; lra.
    + intros y Hy. apply huber_right; lra.
    + apply derive_half_square.
    + apply derive_affine.
  - rewrite (proj2 (proj2 (proj2 (clip_within x (- d) d ltac:(lra)))) G).
    eapply derive_local with (eps := x - d) (g := fun y => d * y + - (5 / 10 * d * d)); [lra| |apply derive_affine].
    intros y Hy. apply huber_right; [exact D|]. apply Rabs_def2 in Hy. lra.
Qed.

(** ** Means *)
Lemma rmean_avg : forall l, rmean l = avg l.
Proof. reflexivity. Qed.
Lemma len_pos : forall {A} (l : list A), l <> [] -> 0 < INR (List.length l).
Proof. intros A [|x t] H; [congruence|]. apply lt_0_INR. cbn. lia. Qed.
Lemma rmean_map : forall {A} (f : A -> R) l, rmean (map f l) = total (map f l) / INR (List.length l).
Proof. intros. unfold rmean. rewrite map_length, rsum_total. reflexivity. Qed.
Lemma rmean_le : forall {A} (f g : A -> R) l, (forall x, In x l -> f x <= g x) -> rmean (map f l) <= rmean (map g l).
Proof.
  intros A f g [|x t] H; [apply Rle_refl|]. rewrite !rmean_map. pose proof (len_pos (x :: t) ltac:(discriminate)). apply Rmult_le_compat_r; [apply Rlt_le, Rinv_0_lt_compat; exact H0|]. apply total_le. exact H.
Qed.
Lemma rmean_ext : forall {A} (f g : A -> R) l, (forall x, In x l -> f x = g x) -> rmean (map f l) = rmean (map g l).
Proof. intros A f g l H. rewrite !rmean_map. f_equal. apply total_ext. exact H. Qed.
Lemma rmean_const : forall {A} (f : A -> R) c l, l <> [] -> (forall x, In x l -> f x = c) -> rmean (map f l) = c.
Proof. intros A f c l N H. rewrite (rmean_ext f (fun _ => c)) by exact H. rewrite rmean_map, total_const. pose proof (len_pos l N). field. lra. Qed.
Lemma rmean_scal : forall {A} (f : A -> R) c l, rmean (map (fun x => c * f x) l) = c * rmean (map f l).
Proof. intros. rewrite !rmean_map, total_scal. unfold Rdiv. ring. Qed.
Lemma rmean_nonneg_zero : forall {A} (f : A -> R) l, l <> [] -> (forall x, In x l -> 0 <= f x) -> 0 <= rmean (map f l) /\ (rmean (map f l) = 0 <-> forall x, In x l -> f x = 0).
Proof.
  intros A f l N H. pose proof (len_pos l N) as P. pose proof (Rinv_0_lt_compat _ P) as I. rewrite rmean_map.
  assert (T : 0 <= total (map f l)). { replace 0 with (total (map (fun _ : A => 0) l)) by (rewrite total_const; ring). apply total_le. exact H. }
  split; [apply Rmult_le_pos; lra|]. split.
  - intros E x Hx. symmetry. apply (total_eq_all (fun _ => 0) f l); [exact H| |exact Hx]. rewrite total_const, Rmult_0_r. unfold Rdiv in E. apply Rmult_integral in E. destruct E; lra.
  - intros E. rewrite (total_ext f (fun _ => 0)) by exact E. rewrite total_const. field. lra.
Qed.

Lemma weighted_facts : forall errs ws, List.length ws = List.length errs -> errs <> [] -> Forall (fun w => 0 <= w) ws ->
  0 <= weighted_error errs ws /\ (Forall (fun w => 0 < w) ws -> (weighted_error errs ws = 0 <-> Forall (fun e => e = 0) errs)).
Proof.
  intros errs ws L N W. unfold weighted_error.
  assert (C : combine ws errs <> []) by (destruct ws; destruct errs; cbn in *; congruence).
  assert (F : forall x, In x (combine ws errs) -> 0 <= fst x * huber 1 (snd x)).
  { intros [w e] H. cbn. pose proof (in_combine_l _ _ _ _ H) as Hw. rewrite Forall_forall in W. apply Rmult_le_pos; [apply W; exact Hw|apply huber_facts; lra]. }
  destruct (rmean_nonneg_zero _ _ C F) as [A B]. split; [exact A|]. intros P. rewrite B. rewrite Forall_forall in P |- *. split.
  - intros H e He. destruct (In_nth _ _ 0 He) as [k [Hk Ek]].
    assert (I : In (nth k ws 0, e) (combine ws errs)) by (rewrite <- Ek, <- combine_nth by exact L; apply nth_In; rewrite combine_length, L; lia).
    specialize (H _ I). cbn in H. apply Rmult_integral in H. destruct H as [H|H].
    + assert (0 < nth k ws 0) by (apply P; apply nth_In; lia). lra.
    + apply (huber_facts 1 e ltac:(lra)). exact H.
  - intros H [w e] I. cbn. apply in_combine_r in I. rewrite (proj2 (proj1 (proj2 (huber_facts 1 e ltac:(lra)))) (H e I)). ring.
Qed.

(** ** Copying the variables *)
Lemma compare_prefix : forall p a b, ((p ++ a) ?= (p ++ b))%string = (a ?= b)%string.
Proof.
  induction p as [|c p IH]; intros a b; [reflexivity|]. cbn [append String.compare].
  replace (Ascii.compare c c) with Eq; [apply IH|]. unfold Ascii.compare. symmetry. apply N.compare_refl.
Qed.
Lemma leb_prefix : forall p a b, ((p ++ a) <=? (p ++ b))%string = (a <=? b)%string.
Proof. intros. unfold String.leb. rewrite compare_prefix. reflexivity. Qed.
Section Vars.
  Context {V : Type}.
  Implicit Types l m : list (string * V).
  Lemma named_insert : forall p (x : string * V) l, insert_var ((p ++ fst x)%string, snd x) (named p l) = named p (insert_var x l).
  Proof.
    intros p x l. induction l as [|y t IH]; [reflexivity|]. cbn [named map insert_var fst]. rewrite leb_prefix. destruct (fst x <=? fst y)%string; [reflexivity|].
    cbn [map]. f_equal. exact IH.
  Qed.
  Lemma named_sort : forall p l, sort_vars (named p l) = named p (sort_vars l).
  Proof. intros p l. induction l as [|x t IH]; [reflexivity|]. change (insert_var ((p ++ fst x)%string, snd x) (sort_vars (named p t)) = named p (insert_var x (sort_vars t))). rewrite IH. apply named_insert. Qed.
  Lemma insert_perm : forall (x : string * V) l, Permutation (x :: l) (insert_var x l).
  Proof.
    intros x l. induction l as [|y t IH]; [reflexivity|]. cbn. destruct (fst x <=? fst y)%string; [reflexivity|]. eapply perm_trans; [apply perm_swap|]. constructor. exact IH.
  Qed.
  Lemma sort_perm : forall l, Permutation l (sort_vars l).
  Proof. induction l as [|x t IH]; [reflexivity|]. cbn. eapply perm_trans; [|apply insert_perm]. constructor. exact IH. Qed.
  (** Only the names decide the order. *)
  Fixpoint insert_name (x : string) (l : list string) : list string :=
    match l with [] => [x] | y :: t => if (x <=? y)%string then x :: l else y :: insert_name x t end.
  Definition sort_names (l : list string) : list string := fold_right insert_name [] l.
  Lemma names_insert : forall (x : string * V) l, map fst (insert_var x l) = insert_name (fst x) (map fst l).
  Proof. intros x l. induction l as [|y t IH]; [reflexivity|]. cbn. destruct (fst x <=? fst y)%string; cbn; [reflexivity|]. f_equal. exact IH. Qed.
  Lemma names_sort : forall l, map fst (sort_vars l) = sort_names (map fst l).
  Proof. induction l as [|x t IH]; [reflexivity|]. cbn. rewrite names_insert. f_equal. exact IH. Qed.
End Vars.
Lemma compare_trans_le : forall a b c, (a ?= b)%string <> Gt -> (b ?= c)%string <> Gt -> (a ?= c)%string <> Gt.
Proof.
  induction a as [|x a IH]; intros [|y b] [|z c] H1 H2; cbn [String.compare] in *; try congruence; try discriminate.
  unfold Ascii.compare in *.
  destruct (N.compare_spec (Ascii.N_of_ascii x) (Ascii.N_of_ascii y)) as [A|A|A]; destruct (N.compare_spec (Ascii.N_of_ascii y) (Ascii.N_of_ascii z)) as [B|B|B];
    destruct (N.compare_spec (Ascii.N_of_ascii x) (Ascii.N_of_ascii z)) as [C|C|C]; try discriminate; try congruence; try lia; eauto.
Qed.
Lemma leb_iff : forall a b, (a <=? b)%string = true <-> (a ?= b)%string <> Gt.
Proof. intros a b. unfold String.leb. destruct (a ?= b)%string; split; intros; try reflexivity; try discriminate; congruence. Qed.
Lemma leb_trans : forall a b c, (a <=? b)%string = true -> (b <=? c)%string = true -> (a <=? c)%string = true.
Proof. intros a b c H1 H2. apply leb_iff in H1. apply leb_iff in H2. apply leb_iff. eapply compare_trans_le; eassumption. Qed.
Lemma insert_swap : forall x y l, insert_name x (insert_name y l) = insert_name y (insert_name x l).
Proof.
  intros x y l.
  assert (T : forall a b, (a <=? b)%string = false -> (b <=? a)%string = true) by (intros a b H; destruct (String.leb_total a b) as [X|X]; [congruence|exact X]).
  assert (AS : forall a b, (a <=? b)%string = true -> (b <=? a)%string = true -> a = b) by (intros; apply String.leb_antisym; assumption).
  induction l as [|z t IH].
  - cbn. destruct (x <=? y)%string eqn:A; destruct (y <=? x)%string eqn:B; try reflexivity.
    + rewrite (AS x y A B). reflexivity.
    + apply T in A. congruence.
  - cbn [insert_name]. destruct (y <=? z)%string eqn:A; destruct (x <=? z)%string eqn:B; cbn [insert_name]; rewrite ?A, ?B.
    + destruct (x <=? y)%string eqn:C; destruct (y <=? x)%string eqn:D; cbn [insert_name]; rewrite ?A, ?B; try reflexivity.
      * rewrite (AS x y C D). reflexivity.
      * apply T in C. congruence.
    + destruct (x <=? y)%string eqn:C; [rewrite (leb_trans x y z C A) in B; discriminate|]. reflexivity.
    + destruct (y <=? x)%string eqn:C; [rewrite (leb_trans y x z C B) in A; discriminate|]. reflexivity.
    + f_equal. exact IH.
Qed.
Lemma sort_names_perm : forall l m, Permutation l m -> sort_names l = sort_names m.
Proof.
  intros l m H. induction H as [|x l m H IH|x y l|l m k H1 IH1 H2 IH2]; [reflexivity|exact (f_equal (insert_name x) IH)|apply insert_swap|congruence].
Qed.

Lemma append_inj : forall p a b, (p ++ a)%string = (p ++ b)%string -> a = b.
Proof. induction p as [|c p IH]; intros a b H; [exact H|]. cbn in H. inversion H. apply IH. assumption. Qed.
Lemma find_name : forall {V} (l : list (string * V)) n v, NoDup (map fst l) -> In (n, v) l -> find (fun y => (n =? fst y)%string) l = Some (n, v).
Proof.
  intros V l n v. induction l as [|[m w] t IH]; intros N H; [destruct H|]. cbn in *. inversion N as [|? ? N1 N2]; subst. destruct (String.eqb_spec n m) as [E|E].
  - destruct H as [H|H]; [congruence|]. exfalso. apply N1. subst m. apply in_map_iff. exists (n, v). split; [reflexivity|exact H].
  - destruct H as [H|H]; [congruence|]. apply IH; assumption.
Qed.
Lemma combine_fst_snd : forall {A B} (l : list (A * B)), combine (map fst l) (map snd l) = l.
Proof. induction l as [|[a b] t IH]; [reflexivity|]. cbn. rewrite IH. reflexivity. Qed.
Lemma sync_spec : forall {V} p t (vars targets : list (string * V)), NoDup (map fst vars) -> Permutation (map fst vars) (map fst targets) ->
  map fst (update_target (named p vars) (named t targets)) = map fst (named t targets) /\
  forall n v, In (n, v) vars -> In ((t ++ n)%string, v) (update_target (named p vars) (named t targets)).
Proof.
  intros V p t vars targets N P. unfold update_target. rewrite !named_sort.
  assert (E : combine (map fst (named t (sort_vars targets))) (map snd (named p (sort_vars vars))) = named t (sort_vars vars)).
  { unfold named. rewrite !map_map. cbn. rewrite <- (map_map fst (fun n => (t ++ n)%string) (sort_vars targets)), names_sort, <- (sort_names_perm _ _ P), <- names_sort, map_map.
    rewrite <- (combine_fst_snd (map _ (sort_vars vars))) at 1. rewrite !map_map. reflexivity. }
  rewrite E.
  assert (ND : NoDup (map fst (named t (sort_vars vars)))).
  { unfold named. rewrite map_map. cbn. rewrite <- (map_map fst (fun n => (t ++ n)%string)). apply FinFun.Injective_map_NoDup; [intros a b H; exact (append_inj t a b H)|].
    eapply Permutation_NoDup; [|exact N]. apply Permutation_map. apply sort_perm. }
  split.
  - rewrite map_map. apply map_ext. intros x. destruct (find _ _); reflexivity.
  - intros n v H. assert (I : In n (map fst targets)) by (eapply Permutation_in; [exact P|]; apply in_map_iff; exists (n, v); split; [reflexivity|exact H]).
    apply in_map_iff in I. destruct I as [[n' w] [E' I]]. cbn in E'. subst n'.
    apply in_map_iff. exists ((t ++ n)%string, w). split; [|unfold named; apply in_map_iff; exists (n, w); split; [reflexivity|exact I]].
    cbn [fst]. rewrite (find_name (named t (sort_vars vars)) (t ++ n)%string v ND); [reflexivity|].
    unfold named. apply in_map_iff. exists (n, v). split; [reflexivity|]. eapply Permutation_in; [apply sort_perm|exact H].
Qed.
