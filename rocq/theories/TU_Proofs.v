From Coq Require Import Ascii String List Arith ZArith QArith Bool Permutation Sorted Lia.
From Verif Require Import IP_Model TU_Model TU_Spec.
Import ListNotations.
Open Scope list_scope.
Open Scope nat_scope.

(** ** The card *)
Lemma last_with_app : forall w a b i f, last_with w i f (a ++ b) = last_with w (i + List.length a) (last_with w i f a) b.
Proof.
  intros w; induction a as [|x a IH]; intros b i f; cbn [app last_with List.length]; [f_equal; lia|].
  rewrite IH. f_equal. lia.
Qed.
Lemma last_with_none : forall w l i f, Forall (fun x => contains w x = false) l -> last_with w i f l = f.
Proof. intros w; induction l as [|x l IH]; intros i f H; [reflexivity|]. inversion H; subst. cbn [last_with]. rewrite H2. apply IH, H3. Qed.

Lemma Forall_fst : forall (l : list text), Forall no_mark l -> Forall (fun x => contains (t "READ TUNE") x = false) l.
Proof. intros l; apply Forall_impl; intros a H; exact (proj1 H). Qed.
Lemma Forall_snd : forall (l : list text), Forall no_mark l -> Forall (fun x => contains (t "END TUNE") x = false) l.
Proof. intros l; apply Forall_impl; intros a H; exact (proj2 H). Qed.

Lemma template_card : forall pre r mid e post, Forall no_mark pre -> reads r -> Forall (fun l => contains (t "READ TUNE") l = false) mid -> ends e -> Forall no_mark post ->
  template (pre ++ r :: mid ++ e :: post) = Some (List.concat (pre ++ post)).
Proof.
  intros pre r mid e post Hp [Hr1 Hr2] Hm [He1 He2] Hq. unfold template.
  assert (E1 : last_with (t "READ TUNE") 0 0 (pre ++ r :: mid ++ e :: post) = List.length pre).
  { rewrite last_with_app. rewrite (last_with_none _ _ _ _ (Forall_fst _ Hp)). cbn [last_with]. rewrite Hr1.
    rewrite last_with_none; [lia|]. apply Forall_app; split; [exact Hm|]. constructor; [exact He1|apply Forall_fst, Hq]. }
  assert (E2 : last_with (t "END TUNE") 0 0 (pre ++ r :: mid ++ e :: post) = List.length pre + 1 + List.length mid).
  { rewrite last_with_app. cbn [last_with]. rewrite last_with_app. cbn [last_with]. rewrite He2.
    rewrite last_with_none; [lia|]. apply Forall_snd, Hq. }
  rewrite E1, E2. replace (List.length pre + 1 + List.length mid =? 0) with false by (symmetry; apply Nat.eqb_neq; lia). rewrite andb_false_r.
  replace (S (List.length pre + 1 + List.length mid) <=? List.length pre) with false by (symmetry; apply Nat.leb_gt; lia).
  do 2 f_equal.
  rewrite firstn_app, firstn_all, Nat.sub_diag. cbn [firstn]. rewrite app_nil_r. f_equal.
  replace (pre ++ r :: mid ++ e :: post) with ((pre ++ r :: mid ++ [e]) ++ post) by (rewrite <- app_assoc; cbn [app]; rewrite <- app_assoc; reflexivity).
  rewrite skipn_app. rewrite skipn_all2 by (rewrite app_length; cbn [List.length]; rewrite app_length; cbn [List.length]; lia).
  cbn [app]. rewrite app_length; cbn [List.length]; rewrite app_length; cbn [List.length].
  replace (_ - _) with 0 by lia. reflexivity.
Qed.

Lemma template_none : forall lines, Forall no_mark lines -> template lines = None.
Proof.
  intros lines H. unfold template. rewrite (last_with_none _ _ _ _ (Forall_fst _ H)), (last_with_none _ _ _ _ (Forall_snd _ H)). reflexivity.
Qed.

(** ** Replacing *)
Lemma prefix_brace : forall w u rest, plain w -> plain u -> prefix (w ++ ["}"%char]) (u ++ "}"%char :: rest) = true -> w = u.
Proof.
  induction w as [|c w IH]; intros [|d u] rest Hw Hu H.
  - reflexivity.
  - cbn [app prefix] in H. apply andb_prop in H as [H _]. apply Ascii.eqb_eq in H. exfalso. apply (proj2 (Hu d (or_introl eq_refl))). symmetry; exact H.
  - cbn [app prefix] in H. apply andb_prop in H as [H _]. apply Ascii.eqb_eq in H. exfalso. apply (proj2 (Hw c (or_introl eq_refl))). exact H.
  - cbn [app prefix] in H. apply andb_prop in H as [H1 H2]. apply Ascii.eqb_eq in H1. subst d. f_equal.
    apply (IH u rest); [intros x Hx; apply Hw; right; exact Hx|intros x Hx; apply Hu; right; exact Hx|exact H2].
Qed.
Lemma prefix_refl : forall a r, prefix a (a ++ r) = true.
Proof. induction a as [|c a IH]; intros r; [reflexivity|]. cbn [app prefix]. rewrite Ascii.eqb_refl. apply IH. Qed.

Lemma replace_plain : forall w v s rest, plain s -> replace_from 0 (name w) v (s ++ rest) = s ++ replace_from 0 (name w) v rest.
Proof.
  intros w v; induction s as [|c s IH]; intros rest H; [reflexivity|].
  cbn [app replace_from]. unfold name at 1. cbn [prefix].
  replace (Ascii.eqb "{"%char c) with false.
  2: { symmetry. apply Ascii.eqb_neq. intros E. apply (proj1 (H c (or_introl eq_refl))). symmetry; exact E. }
  cbn [andb]. rewrite IH; [reflexivity|]. intros x Hx; apply H; right; exact Hx.
Qed.
Lemma replace_skip : forall old new a rest, replace_from (List.length a) old new (a ++ rest) = replace_from 0 old new rest.
Proof. intros old new; induction a as [|c a IH]; intros rest; [reflexivity|]. cbn [List.length app replace_from]. apply IH. Qed.
Lemma replace_hole : forall w v rest, replace_from 0 (name w) v (name w ++ rest) = v ++ replace_from 0 (name w) v rest.
Proof.
  intros w v rest. unfold name at 2. cbn [app replace_from].
  replace (prefix (name w) ("{"%char :: (w ++ ["}"%char]) ++ rest)) with true by (symmetry; apply (prefix_refl (name w))).
  f_equal. replace (List.length (name w) - 1) with (List.length (w ++ ["}"%char])) by (unfold name; cbn [List.length]; lia).
  apply replace_skip.
Qed.
Lemma replace_other : forall w u v rest, plain w -> plain u -> w <> u -> replace_from 0 (name w) v (name u ++ rest) = name u ++ replace_from 0 (name w) v rest.
Proof.
  intros w u v rest Hw Hu N. unfold name at 2 3. cbn [app replace_from].
  replace (prefix (name w) ("{"%char :: (u ++ ["}"%char]) ++ rest)) with false.
  2: { symmetry. unfold name. cbn [prefix]. rewrite Ascii.eqb_refl. cbn [andb]. rewrite <- app_assoc. cbn [app].
       destruct (prefix (w ++ ["}"%char]) (u ++ "}"%char :: rest)) eqn:E; [|reflexivity]. exfalso. apply N, (prefix_brace _ _ _ Hw Hu E). }
  f_equal. rewrite <- !app_assoc. rewrite replace_plain by exact Hu. f_equal.
Qed.

(** Holes w become the text v. *)
Definition put (w v : text) (p : piece) : piece := match p with Txt s => Txt s | Hole u => if teqb w u then Txt v else Hole u end.
Lemma teqb_eq : forall a b, teqb a b = true <-> a = b.
Proof. intros a b. unfold teqb. destruct (list_eq_dec ascii_dec a b); split; congruence. Qed.
Lemma teqb_neq : forall a b, teqb a b = false <-> a <> b.
Proof. intros a b. unfold teqb. destruct (list_eq_dec ascii_dec a b); split; congruence. Qed.
Lemma replace_source : forall w v ps, plain w -> flat ps -> replace (name w) v (source ps) = source (map (put w v) ps).
Proof.
  intros w v; unfold replace, source; induction ps as [|p ps IH]; intros Hw H; [reflexivity|].
  inversion H; subst. cbn [map List.concat]. destruct p as [s|u]; cbn [written put content] in *.
  - rewrite replace_plain by assumption. f_equal. apply IH; assumption.
  - destruct (teqb w u) eqn:E.
    + apply teqb_eq in E. subst u. rewrite replace_hole. cbn [written]. f_equal. apply IH; assumption.
    + apply teqb_neq in E. rewrite replace_other by assumption. cbn [written]. f_equal. apply IH; assumption.
Qed.
Lemma put_flat : forall w v ps, plain v -> flat ps -> flat (map (put w v) ps).
Proof.
  intros w v ps Hv H. unfold flat. rewrite Forall_map. revert H. apply Forall_impl. intros [s|u] H; cbn [put content] in *; [exact H|].
  destruct (teqb w u); [exact Hv|exact H].
Qed.
Lemma value_of_cons : forall w u v s, value_of w ((u, v) :: s) = if teqb w u then Some v else value_of w s.
Proof. intros w u v s. unfold value_of. cbn [find fst]. destruct (teqb w u); reflexivity. Qed.
Lemma filled_put : forall w v s ps, filled s (map (put w v) ps) = filled ((w, v) :: s) ps.
Proof.
  intros w v s ps. unfold filled. rewrite map_map. f_equal. apply map_ext. intros [u|u]; [reflexivity|].
  cbn [put]. rewrite value_of_cons. destruct (teqb w u) eqn:E.
  - apply teqb_eq in E; subst. replace (teqb u u) with true by (symmetry; apply teqb_eq; reflexivity). reflexivity.
  - replace (teqb u w) with false; [reflexivity|]. symmetry. apply teqb_neq. apply teqb_neq in E. congruence.
Qed.
Lemma filled_nil : forall ps, filled [] ps = source ps.
Proof. intros ps. unfold filled, source. apply f_equal, map_ext. intros [u|u]; reflexivity. Qed.

Lemma fill_filled : forall ws vs ps, Forall plain ws -> Forall plain vs -> List.length ws = List.length vs -> flat ps ->
  fill (map name ws) vs (source ps) = Some (filled (combine ws vs) ps).
Proof.
  induction ws as [|w ws IH]; intros [|v vs] ps Hw Hv L H; cbn [List.length] in L; try discriminate.
  - cbn [map fill combine]. rewrite (filled_nil ps). reflexivity.
  - inversion Hw; inversion Hv; subst. cbn [map fill combine]. rewrite replace_source by assumption.
    rewrite IH; [|assumption..|lia|apply put_flat; assumption]. rewrite filled_put. reflexivity.
Qed.
Lemma fill_short : forall ns vs s, List.length vs < List.length ns -> fill ns vs s = None.
Proof. induction ns as [|n ns IH]; intros [|v vs] s H; cbn [List.length] in H; try lia; cbn [fill]; [reflexivity|]. apply IH; lia. Qed.

(** A name is in a flat template exactly if it is a hole. *)
Lemma contains_app_r : forall w a b, contains w b = true -> contains w (a ++ b) = true.
Proof. intros w; induction a as [|c a IH]; intros b H; [exact H|]. cbn [app contains]. rewrite IH by exact H. apply orb_true_r. Qed.
Lemma contains_prefix : forall w s, prefix w s = true -> contains w s = true.
Proof. intros w [|c s] H; cbn [contains]; rewrite H; reflexivity. Qed.
Lemma contains_plain : forall w s rest, plain s -> contains (name w) (s ++ rest) = contains (name w) rest.
Proof.
  intros w; induction s as [|c s IH]; intros rest H; [reflexivity|]. cbn [app contains]. unfold name at 1. cbn [prefix].
  replace (Ascii.eqb "{"%char c) with false.
  2: { symmetry. apply Ascii.eqb_neq. intros E. apply (proj1 (H c (or_introl eq_refl))). symmetry; exact E. }
  cbn [andb orb]. apply IH. intros x Hx; apply H; right; exact Hx.
Qed.
Lemma contains_hole : forall w ps, plain w -> flat ps -> contains (name w) (source ps) = true <-> In (Hole w) ps.
Proof.
  intros w; unfold source; induction ps as [|p ps IH]; intros Hw H; [split; [intros E; discriminate E|intros []]|].
  inversion H; subst. cbn [map List.concat]. destruct p as [s|u]; cbn [written content] in *.
  - rewrite contains_plain by assumption. rewrite IH by assumption. split; [intros; right; assumption|intros [E|E]; [discriminate|exact E]].
  - destruct (list_eq_dec ascii_dec w u) as [->|N].
    + split; [intros; left; reflexivity|]. intros _. apply contains_prefix, prefix_refl.
    + unfold name at 2. cbn [app contains].
      replace (prefix (name w) ("{"%char :: (u ++ ["}"%char]) ++ List.concat (map written ps))) with false.
      2: { symmetry. unfold name. cbn [prefix]. rewrite Ascii.eqb_refl. cbn [andb]. rewrite <- app_assoc. cbn [app].
           destruct (prefix (w ++ ["}"%char]) _) eqn:E; [|reflexivity]. exfalso. apply N, (prefix_brace _ _ _ Hw H2 E). }
      cbn [orb]. rewrite <- app_assoc, contains_plain by assumption. cbn [app contains]. unfold name at 1. cbn [prefix].
      replace (Ascii.eqb "{"%char "}"%char) with false by reflexivity. cbn [andb orb]. rewrite IH by assumption.
      split; [intros; right; assumption|intros [E|E]; [congruence|exact E]].
Qed.

(** ** Combinations *)
Lemma product_in : forall V (ls : list (list V)) c, In c (product ls) <-> Forall2 (fun v l => In v l) c ls.
Proof.
  intros V; induction ls as [|l ls IH]; intros c; cbn [product].
  - split; [intros [<-|[]]; constructor|intros H; inversion H; left; reflexivity].
  - rewrite in_flat_map. split.
    + intros (x & Hx & Hc). apply in_map_iff in Hc as (c' & <- & Hc'). constructor; [exact Hx|apply IH, Hc'].
    + intros H. inversion H; subst. exists x; split; [assumption|]. apply in_map, IH. assumption.
Qed.
Lemma product_length : forall V (ls : list (list V)), List.length (product ls) = times (map (@List.length V) ls).
Proof.
  intros V; induction ls as [|l ls IH]; [reflexivity|]. cbn [product map times]. rewrite <- IH.
  induction l as [|x l IHl]; [reflexivity|]. cbn [flat_map List.length]. rewrite app_length, map_length, IHl. lia.
Qed.
Lemma product_nth : forall V (l : list V) ls k, k < List.length l * List.length (product ls) ->
  nth_error (product (l :: ls)) k =
  match nth_error l (k / List.length (product ls)), nth_error (product ls) (k mod List.length (product ls)) with Some x, Some c => Some (x :: c) | _, _ => None end.
Proof.
  intros V l ls. cbn [product]. set (p := product ls). induction l as [|x l IH]; intros k H; [cbn in H; lia|].
  assert (P : List.length p <> 0) by (destruct p; cbn in *; lia).
  cbn [flat_map]. destruct (le_lt_dec (List.length p) k) as [Hk|Hk].
  - rewrite nth_error_app2 by (rewrite map_length; exact Hk). rewrite map_length. rewrite IH by (cbn [List.length] in H; lia).
    replace (k / List.length p) with (S ((k - List.length p) / List.length p)).
    2: { replace k with ((k - List.length p) + 1 * List.length p) at 2 by lia. rewrite Nat.div_add by exact P. lia. }
    replace (k mod List.length p) with ((k - List.length p) mod List.length p).
    2: { replace k with ((k - List.length p) + 1 * List.length p) at 2 by lia. rewrite Nat.mod_add by exact P. reflexivity. }
    reflexivity.
  - rewrite nth_error_app1 by (rewrite map_length; exact Hk). rewrite Nat.div_small, Nat.mod_small by exact Hk. cbn [nth_error].
    rewrite nth_error_map. destruct (nth_error p k); reflexivity.
Qed.
Lemma nodup_app : forall A (a b : list A), NoDup a -> NoDup b -> (forall x, In x a -> In x b -> False) -> NoDup (a ++ b).
Proof.
  intros A; induction a as [|x a IH]; intros b Ha Hb H; [exact Hb|]. inversion Ha; subst. cbn [app]. constructor.
  - intros E. apply in_app_or in E as [E|E]; [contradiction|]. apply (H x); [left; reflexivity|exact E].
  - apply IH; [assumption..|]. intros y Hy. apply H. right; exact Hy.
Qed.
Lemma product_nodup : forall V (ls : list (list V)), Forall (@NoDup V) ls -> NoDup (product ls).
Proof.
  intros V; induction ls as [|l ls IH]; intros H; cbn [product]; [constructor; [intros []|constructor]|].
  inversion H; subst. specialize (IH H3). clear H H3. induction l as [|x l IHl]; [constructor|]. inversion H2; subst. cbn [flat_map].
  apply nodup_app.
  - apply FinFun.Injective_map_NoDup; [intros a b E; injection E; auto|exact IH].
  - apply IHl; assumption.
  - intros c E1 E2. apply in_map_iff in E1 as (c1 & <- & _). apply in_flat_map in E2 as (y & Hy & E2). apply in_map_iff in E2 as (c2 & E & _).
    injection E; intros; subst. contradiction.
Qed.

Lemma all_some_map : forall A B (f : A -> option B) (g : A -> B) l, (forall x, In x l -> f x = Some (g x)) -> all_some (map f l) = Some (map g l).
Proof. intros A B f g; induction l as [|x l IH]; intros H; [reflexivity|]. cbn [map all_some]. rewrite (H x (or_introl eq_refl)), IH; [reflexivity|]. intros y Hy; apply H; right; exact Hy. Qed.
Lemma all_some_none : forall A (l : list (option A)), In None l -> all_some l = None.
Proof. intros A; induction l as [|[x|] l IH]; intros H; [destruct H| |reflexivity]. destruct H as [H|H]; [discriminate|]. cbn [all_some]. rewrite IH by exact H. reflexivity. Qed.
Lemma all_some_spec : forall A (l : list (option A)) r, all_some l = Some r -> l = map Some r.
Proof.
  intros A; induction l as [|[x|] l IH]; intros r H; cbn [all_some] in H; [injection H as <-; reflexivity| |discriminate].
  destruct (all_some l); [|discriminate]. injection H as <-. cbn [map]. rewrite (IH l0 eq_refl). reflexivity.
Qed.

Definition grid_values {V} isspace to_int to_float to_str (card : list (text * text)) : list (list V) :=
  map (fun kv => map (element isspace to_int to_float to_str) (split "," (snd kv))) (tuned_items card).

Lemma combine_fst : forall A B (a : list A) (b : list B), List.length a = List.length b -> map fst (combine a b) = a.
Proof. intros A B; induction a as [|x a IH]; intros [|y b] L; cbn [List.length] in L; try discriminate; [reflexivity|]. cbn [combine map fst]. rewrite IH by lia. reflexivity. Qed.
Lemma combine_snd : forall A B (a : list A) (b : list B), List.length a = List.length b -> map snd (combine a b) = b.
Proof. intros A B; induction a as [|x a IH]; intros [|y b] L; cbn [List.length] in L; try discriminate; [reflexivity|]. cbn [combine map snd]. rewrite IH by lia. reflexivity. Qed.
Lemma combine_map_self : forall A B (f : A -> B) l, combine l (map f l) = map (fun x => (x, f x)) l.
Proof. intros A B f; induction l as [|x l IH]; [reflexivity|]. cbn [map combine]. rewrite IH. reflexivity. Qed.

Lemma product_row_length : forall V (ls : list (list V)) c, In c (product ls) -> List.length c = List.length ls.
Proof. intros V ls c H. apply product_in in H. induction H; [reflexivity|]. cbn [List.length]. rewrite IHForall2. reflexivity. Qed.

Lemma grid_cases_eq : forall V isspace to_int to_float (to_str : text -> V) show lines card ps ws,
  template lines = Some (source ps) -> flat ps -> map fst (tuned_items card) = map name ws -> Forall plain ws ->
  (forall c v, In c (product (grid_values isspace to_int to_float to_str card)) -> In v c -> plain (show v)) ->
  (forall w, In w ws -> In (Hole w) ps) ->
  grid_cases isspace to_int to_float to_str show lines card =
  Some (let combos := product (grid_values isspace to_int to_float to_str card) in
        combine (seq 1 (List.length combos)) (map (fun c => (c, filled (combine ws (map show c)) ps)) combos)).
Proof.
  intros V isspace to_int to_float to_str show lines card ps ws Ht Hf Hk Hw Hv Hu.
  unfold grid_cases. rewrite Ht. unfold grid_count. fold (tuned_items card).
  replace (all_used (source ps) (map fst (tuned_items card))) with true.
  2: { symmetry. unfold all_used. rewrite forallb_forall. rewrite Hk. intros n Hn. apply in_map_iff in Hn as (w & <- & Hn).
       apply contains_hole; [exact (proj1 (Forall_forall _ _) Hw w Hn)|exact Hf|apply Hu, Hn]. }
  fold (grid_values isspace to_int to_float to_str card). rewrite Hk.
  rewrite (all_some_map _ _ _ (fun c => filled (combine ws (map show c)) ps)).
  - cbn [option_map]. rewrite combine_map_self. reflexivity.
  - intros c Hc. apply fill_filled; [exact Hw| |  |exact Hf].
    + apply Forall_forall. intros s Hs. apply in_map_iff in Hs as (v & <- & Hs). apply (Hv c v Hc Hs).
    + rewrite map_length. rewrite (product_row_length _ _ _ Hc). unfold grid_values. rewrite map_length.
      rewrite <- (map_length name ws), <- Hk, map_length. reflexivity.
Qed.

Theorem grid_all : forall V isspace to_int to_float (to_str : text -> V) show lines card ps ws,
  let values := map (fun kv => map (element isspace to_int to_float to_str) (split "," (snd kv))) (tuned_items card) in
  template lines = Some (source ps) -> flat ps -> map fst (tuned_items card) = map name ws -> Forall plain ws ->
  (forall l v, In l values -> In v l -> plain (show v)) -> (forall w, In w ws -> In (Hole w) ps) ->
  exists cs, grid_cases isspace to_int to_float to_str show lines card = Some cs
    /\ map fst cs = seq 1 (times (map (@List.length V) values))
    /\ (forall combo, In combo (map (fun c => fst (snd c)) cs) <-> Forall2 (fun v l => In v l) combo values)
    /\ (Forall (@NoDup V) values -> NoDup (map (fun c => fst (snd c)) cs))
    /\ (forall k combo file, In (k, (combo, file)) cs -> file = filled (combine ws (map show combo)) ps).
Proof.
  intros V isspace to_int to_float to_str show lines card ps ws values Ht Hf Hk Hw Hv Hu.
  rewrite (grid_cases_eq _ _ _ _ _ show lines card ps ws); try assumption.
  2: { intros c v Hc Hi. change (grid_values isspace to_int to_float to_str card) with values in Hc. apply product_in in Hc.
       revert Hi. clear -Hc Hv. induction Hc; intros Hi; [destruct Hi|destruct Hi as [E|E]; subst].
       - apply (Hv y); [left; reflexivity|assumption].
       - apply IHHc; [intros l0 v0 H1 H2; apply (Hv l0 v0); [right; exact H1|exact H2]|exact E]. }
  change (grid_values isspace to_int to_float to_str card) with values. cbv zeta.
  set (g := fun c : list V => (c, filled (combine ws (map show c)) ps)).
  assert (L : List.length (seq 1 (List.length (product values))) = List.length (map g (product values))) by (rewrite seq_length, map_length; reflexivity).
  assert (S : map (fun c => fst (snd c)) (combine (seq 1 (List.length (product values))) (map g (product values))) = product values).
  { rewrite <- (map_map snd fst). rewrite combine_snd by exact L. rewrite map_map. apply map_id. }
  eexists. split; [reflexivity|]. split; [|split; [|split]].
  - rewrite combine_fst by exact L. rewrite product_length. reflexivity.
  - intros combo. rewrite S. apply product_in.
  - intros N. rewrite S. apply product_nodup, N.
  - intros k combo file H. apply in_combine_r in H. apply in_map_iff in H as (c & E & _). injection E; intros; subst; reflexivity.
Qed.

Theorem grid_unused : forall V isspace to_int to_float (to_str : text -> V) show lines card ps w,
  template lines = Some (source ps) -> flat ps -> plain w -> In (name w) (map fst (tuned_items card)) -> ~ In (Hole w) ps ->
  grid_cases isspace to_int to_float to_str show lines card = None.
Proof.
  intros V isspace to_int to_float to_str show lines card ps w Ht Hf Hw Hk Hn.
  unfold grid_cases. rewrite Ht. unfold grid_count. fold (tuned_items card).
  replace (all_used (source ps) (map fst (tuned_items card))) with false; [reflexivity|].
  symmetry. unfold all_used. apply not_true_is_false. intros E. rewrite forallb_forall in E. specialize (E _ Hk).
  apply contains_hole in E; [contradiction|exact Hw|exact Hf].
Qed.

(** The order: the last parameter changes fastest. *)
Theorem grid_order : forall V isspace to_int to_float (to_str : text -> V) show lines card ps ws,
  let values := map (fun kv => map (element isspace to_int to_float to_str) (split "," (snd kv))) (tuned_items card) in
  template lines = Some (source ps) -> flat ps -> map fst (tuned_items card) = map name ws -> Forall plain ws ->
  (forall l v, In l values -> In v l -> plain (show v)) -> (forall w, In w ws -> In (Hole w) ps) ->
  forall cs, grid_cases isspace to_int to_float to_str show lines card = Some cs ->
  forall k, k < times (map (@List.length V) values) -> forall j l, nth_error values j = Some l ->
  exists c, nth_error cs k = Some c /\ nth_error (fst (snd c)) j = nth_error l (k / times (map (@List.length V) (skipn (S j) values)) mod List.length l).
Proof.
  intros V isspace to_int to_float to_str show lines card ps ws values Ht Hf Hk Hw Hv Hu cs Hc k Hlt j l Hj.
  rewrite (grid_cases_eq _ _ _ _ _ show lines card ps ws) in Hc; try assumption.
  2: { intros c v Hc' Hi. change (grid_values isspace to_int to_float to_str card) with values in Hc'. apply product_in in Hc'.
       revert Hi. clear -Hc' Hv. induction Hc'; intros Hi; [destruct Hi|destruct Hi as [E|E]; subst].
       - apply (Hv y); [left; reflexivity|assumption].
       - apply IHHc'; [intros l0 v0 H1 H2; apply (Hv l0 v0); [right; exact H1|exact H2]|exact E]. }
  change (grid_values isspace to_int to_float to_str card) with values in Hc. cbv zeta in Hc. injection Hc as <-.
  clear Hu Hv Hw Hk Hf Ht.
  assert (G : exists combo, nth_error (product values) k = Some combo /\ nth_error combo j = nth_error l (k / times (map (@List.length V) (skipn (S j) values)) mod List.length l)).
  { revert k Hlt j l Hj. generalize values; clear. induction values as [|l0 ls IH]; intros k Hlt j l Hj; [destruct j; discriminate|].
    cbn [map times] in Hlt. rewrite product_nth by (rewrite product_length; exact Hlt). rewrite product_length.
    set (T := times (map (@List.length V) ls)) in *.
    assert (T0 : T <> 0) by (intros E; rewrite E in Hlt; lia).
    assert (M : k mod T < T) by (apply Nat.mod_upper_bound; exact T0).
    assert (D : k / T < List.length l0) by (apply Nat.div_lt_upper_bound; [exact T0|lia]).
    destruct (nth_error l0 (k / T)) as [x|] eqn:Ex; [|apply nth_error_None in Ex; lia].
    destruct (nth_error (product ls) (k mod T)) as [c|] eqn:Ec.
    2: { apply nth_error_None in Ec. rewrite product_length in Ec. fold T in Ec. lia. }
    exists (x :: c). split; [reflexivity|]. destruct j as [|j].
    - cbn [nth_error] in Hj. injection Hj as <-. cbn [skipn nth_error]. fold T. rewrite Nat.mod_small by exact D. symmetry; exact Ex.
    - cbn [nth_error] in *. destruct (IH (k mod T) M j l Hj) as (c' & Ec' & E'). rewrite Ec in Ec'. injection Ec' as <-.
      rewrite E'. f_equal. cbn [skipn]. 
      assert (X : exists m, T = m * (List.length l * times (map (@List.length V) (skipn (S j) ls)))).
      { clear -Hj. unfold T. clear T. revert j Hj. induction ls as [|a ls IH]; intros j Hj; [destruct j; discriminate|]. destruct j as [|j].
        - injection Hj as <-. exists 1. cbn [map times skipn]. lia.
        - cbn [nth_error] in Hj. destruct (IH j Hj) as (m & E). exists (List.length a * m). cbn [map times]. rewrite E.
          change (skipn (S (S j)) (a :: ls)) with (skipn (S j) ls). lia. }
      destruct X as (m & EX). set (U := times (map (@List.length V) (skipn (S j) ls))) in *.
      change (skipn (S (S j)) (l0 :: ls)) with (skipn (S j) ls).
      destruct (Nat.eq_dec U 0) as [EU|NU]; [exfalso; apply T0; rewrite EX, EU; lia|].
      destruct (Nat.eq_dec (List.length l) 0) as [EL|NL]; [exfalso; apply T0; rewrite EX, EL; lia|].
      fold U.
      rewrite (Nat.div_mod k T T0) at 2. rewrite EX at 2. 
      replace (m * (List.length l * U) * (k / T) + k mod T) with (k mod T + (m * (k / T) * List.length l) * U) by ring.
      rewrite Nat.div_add by exact NU. rewrite Nat.mod_add by exact NL. reflexivity. }
  destruct G as (combo & E1 & E2).
  set (g := fun c : list V => (c, filled (combine ws (map show c)) ps)).
  exists (S k, g combo). split; [|exact E2].
  assert (L : k < List.length (product values)) by (rewrite product_length; exact Hlt).
  clear -E1 L. revert E1 L. generalize (product values) as p. intros p E1 L.
  assert (H : forall (p : list (list V)) s k, nth_error p k = Some combo -> nth_error (combine (seq s (List.length p)) (map g p)) k = Some (s + k, g combo)).
  { clear. induction p as [|c p IH]; intros s [|k] H; cbn [nth_error] in H; try discriminate; cbn [List.length seq map combine nth_error].
    - injection H as <-. rewrite Nat.add_0_r. reflexivity.
    - rewrite (IH (S s) k H). f_equal. f_equal. lia. }
  rewrite (H p 1 k E1). reflexivity.
Qed.
