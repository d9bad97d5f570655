From Coq Require Import String List Arith Bool Lia.
From Verif Require Import WR_Model WR_Spec.
Import ListNotations.
Open Scope list_scope. Open Scope nat_scope.

Lemma dget_app : forall {V} n (a b : dict V), dget n (a ++ b) = match dget n a with Some v => Some v | None => dget n b end.
Proof. induction a as [|[m v] a IH]; intros b; cbn [dget app]; [reflexivity|]. destruct (String.eqb n m); [reflexivity|]. apply IH. Qed.
Lemma dget_put : forall {V} n m v (d : dict V), dget n (dput m v d) = if String.eqb n m then Some v else dget n d.
Proof. reflexivity. Qed.
Lemma dget_del : forall {V} n m (d : dict V), dget n (ddel m d) = if String.eqb n m then None else dget n d.
Proof.
  unfold ddel; induction d as [|[k v] d IH]; cbn [dget filter fst]; [destruct (String.eqb n m); reflexivity|].
  destruct (String.eqb_spec m k); cbn [negb dget].
  - subst k. rewrite IH. destruct (String.eqb n m); reflexivity.
  - destruct (String.eqb_spec n k); [|exact IH]. destruct (String.eqb_spec n m); [congruence|reflexivity].
Qed.
Lemma own_set : forall {V} n m (v : V) o, dget n (own (set_obj m v o)) = if String.eqb n m then Some v else dget n (own o).
Proof. intros; unfold own, set_obj; cbn [inst klass dput]. cbn [app dget]. reflexivity. Qed.

Section Lookup.
Context {V : Type}.
Lemma class_attrs : forall f (o : object V) e, dget "class_attributes" (inst o) <> None -> all_attributes (S (S f)) (Wrap o e) = Value (own o).
Proof.
  intros f o e H. cbn [all_attributes getattr]. unfold own at 1. rewrite dget_app.
  destruct (dget "class_attributes" (inst o)); [reflexivity|contradiction].
Qed.
Definition first_of (l : list (string * V)) : option string := match l with [] => None | (c, _) :: _ => Some c end.
Lemma depth_ok : forall (e : env V) n found f, built e -> length (wrappers e) + 3 <= f ->
  depth_check f e n found = Value (first_of (if found then owners n e else tl (owners n e))).
Proof.
  induction e as [o|o e IH]; intros n found f Hb Hf.
  - destruct f as [|f]; [cbn in Hf; lia|]. cbn [depth_check]. unfold owners, has; cbn [objects flat_map].
    destruct (dget n (own o)); cbn; destruct found; reflexivity.
  - cbn [wrappers length] in Hf. destruct f as [|[|[|f]]]; try lia.
    change (depth_check (S (S (S f))) (Wrap o e) n found) with
      (match all_attributes (S (S f)) (Wrap o e) with
       | Value d => if has n d then if found then Value (Some (cls o)) else depth_check (S (S f)) e n true else depth_check (S (S f)) e n found
       | Missing => Missing | Ambiguous a b => Ambiguous a b | Recursion => Recursion end).
    rewrite class_attrs by (apply Hb; left; reflexivity).
    assert (Hb' : built e) by (intros p Hp; apply Hb; right; exact Hp).
    unfold owners; cbn [objects flat_map]. fold (owners n e). unfold has.
    destruct (dget n (own o)) as [v|]; cbn [app].
    + destruct found; [reflexivity|]. cbn [tl]. rewrite (IH n true) by (auto; lia). reflexivity.
    + rewrite (IH n found) by (auto; lia). reflexivity.
Qed.
Lemma recursive_ok : forall (e : env V) n f, built e -> length (wrappers e) + 3 <= f ->
  (exists o e', e = Wrap o e') -> length (owners n e) <= 1 ->
  recursive f e n = match owners n e with [] => Missing | (_, v) :: _ => Value v end.
Proof.
  induction e as [o|o e IH]; intros n f Hb Hf Hw Hu; [destruct Hw as [o' [e' He]]; discriminate|]. clear Hw.
  cbn [wrappers length] in Hf. destruct f as [|[|[|f]]]; try lia.
  change (recursive (S (S (S f))) (Wrap o e) n) with
    (match all_attributes (S (S f)) (Wrap o e) with
     | Value d => if has n d then getattr (S (S f)) (Wrap o e) n else match e with Wrap _ _ => recursive (S (S f)) e n | Base _ => getattr (S (S f)) e n end
     | Missing => Missing | Ambiguous a b => Ambiguous a b | Recursion => Recursion end).
  rewrite class_attrs by (apply Hb; left; reflexivity).
  assert (Hb' : built e) by (intros p Hp; apply Hb; right; exact Hp).
  unfold owners in Hu |- *; cbn [objects flat_map] in Hu |- *. fold (owners n e) in Hu |- *. unfold has.
  destruct (dget n (own o)) as [v|] eqn:E; cbn [app] in Hu |- *.
  - cbn [getattr]. rewrite E. reflexivity.
  - destruct e as [p|p e'].
    + cbn [getattr]. unfold owners; cbn [objects flat_map]. destruct (dget n (own p)); reflexivity.
    + apply IH; auto; [lia|eauto].
Qed.
Lemma getattr_ok : forall (e : env V) n f, built e -> enough f e ->
  getattr f e n = match dget n (own (outermost e)) with
                  | Some v => Value v
                  | None => match owners n e with [] => Missing | [(_, v)] => Value v | _ :: (c, _) :: _ => Ambiguous (cls (outermost e)) c end
                  end.
Proof.
  intros e n f Hb Hf. unfold enough in Hf. destruct f as [|f]; [lia|]. destruct e as [o|o e].
  - cbn [getattr outermost]. unfold owners; cbn [objects flat_map]. destruct (dget n (own o)); reflexivity.
  - cbn [getattr outermost]. destruct (dget n (own o)) as [v|] eqn:E; [reflexivity|].
    rewrite depth_ok by (auto; lia).
    destruct (owners n (Wrap o e)) as [|[c v] [|[c' v'] l]] eqn:W; cbn [tl first_of].
    + rewrite recursive_ok by (auto; try lia; eauto; rewrite W; cbn; lia). rewrite W. reflexivity.
    + rewrite recursive_ok by (auto; try lia; eauto; rewrite W; cbn; lia). rewrite W. reflexivity.
    + reflexivity.
Qed.
Lemma value_iff : forall (e : env V) n f v, built e -> enough f e ->
  (getattr f e n = Value v <-> dget n (own (outermost e)) = Some v \/ dget n (own (outermost e)) = None /\ exists c, owners n e = [(c, v)]).
Proof.
  intros e n f v Hb Hf. rewrite getattr_ok by assumption.
  destruct (dget n (own (outermost e))) as [w|].
  - split; [intros H; injection H as ->; auto|]. intros [H|[H _]]; [injection H as ->; reflexivity|discriminate].
  - destruct (owners n e) as [|[c w] [|[c' v'] l]].
    + split; [discriminate|]. intros [H|[_ [c H]]]; discriminate.
    + split; [intros H; injection H as ->; eauto|]. intros [H|[_ [c1 H]]]; [discriminate|]. injection H as -> ->. reflexivity.
    + split; [discriminate|]. intros [H|[_ [c1 H]]]; discriminate.
Qed.
Lemma missing_iff : forall (e : env V) n f, built e -> enough f e -> (getattr f e n = Missing <-> owners n e = []).
Proof.
  intros e n f Hb Hf. rewrite getattr_ok by assumption.
  destruct (dget n (own (outermost e))) as [w|] eqn:E.
  - split; [discriminate|]. unfold owners. destruct e; cbn [objects flat_map outermost] in *; rewrite E; discriminate.
  - destruct (owners n e) as [|[c w] [|[c' v'] l]]; split; congruence.
Qed.
Lemma ambiguous_iff : forall (e : env V) n f a b, built e -> enough f e ->
  (getattr f e n = Ambiguous a b <-> dget n (own (outermost e)) = None /\ a = cls (outermost e) /\ exists x v l, owners n e = x :: (b, v) :: l).
Proof.
  intros e n f a b Hb Hf. rewrite getattr_ok by assumption.
  destruct (dget n (own (outermost e))) as [w|] eqn:E; [split; [discriminate|intros [H _]; discriminate]|].
  destruct (owners n e) as [|[c w] [|[c' v'] l]].
  - split; [discriminate|intros [_ [_ [x [v [l H]]]]]; discriminate].
  - split; [discriminate|intros [_ [_ [x [v [l H]]]]]; discriminate].
  - split; [intros H; injection H as <- <-; eauto 8|]. intros [_ [-> [x [v [k H]]]]]. injection H as _ -> _ _. reflexivity.
Qed.
Lemma recursion_never : forall (e : env V) n f, built e -> enough f e -> getattr f e n <> Recursion.
Proof.
  intros e n f Hb Hf. rewrite getattr_ok by assumption.
  destruct (dget n (own (outermost e))); [discriminate|]. destruct (owners n e) as [|[c w] [|[c' v'] l]]; discriminate.
Qed.
(** ** Not built *)
Lemma unbuilt : forall f (o : object V) e n, dget "class_attributes" (own o) = None -> dget n (own o) = None -> getattr f (Wrap o e) n = Recursion.
Proof.
  intros f. induction f as [f IH] using lt_wf_ind. intros o e n Hc Hn.
  destruct f as [|f]; [reflexivity|]. cbn [getattr]. rewrite Hn.
  destruct f as [|f]; [reflexivity|]. cbn [depth_check].
  destruct f as [|f]; [reflexivity|]. cbn [all_attributes].
  rewrite IH by (auto; lia). reflexivity.
Qed.
(** ** Setting *)
Lemma set_get : forall (e : env V) n v f, 0 < f -> getattr f (setattr e n v) n = Value v.
Proof. intros [o|o e] n v [|f] H; try lia; cbn [setattr getattr]; rewrite own_set, String.eqb_refl; reflexivity. Qed.
Lemma set_other : forall (e : env V) n v, objects (setattr e n v) = set_obj n v (outermost e) :: tl (objects e).
Proof. intros [o|o e] n v; reflexivity. Qed.
Lemma set_hides : forall o (e : env V) n v f, built (Wrap o (setattr e n v)) -> enough f (Wrap o (setattr e n v)) -> dget n (own o) = None ->
  (exists p w, In p (tl (objects e)) /\ dget n (own p) = Some w) ->
  exists c, getattr f (Wrap o (setattr e n v)) n = Ambiguous (cls o) c.
Proof.
  intros o e n v f Hb Hf Ho [p [w [Hp Hw]]]. rewrite getattr_ok by assumption. cbn [outermost]. rewrite Ho.
  unfold owners. cbn [objects flat_map]. rewrite Ho, set_other. cbn [flat_map app]. rewrite own_set, String.eqb_refl. cbn [app].
  assert (HI : In (cls p, w) (flat_map (fun o => match dget n (own o) with Some v => [(cls o, v)] | None => [] end) (tl (objects e)))).
  { apply in_flat_map. exists p. split; [exact Hp|]. rewrite Hw. left. reflexivity. }
  destruct (flat_map _ (tl (objects e))) as [|[c u] l]; [contradiction|]. eauto.
Qed.
(** ** Normalization *)
Lemma unwrap_iff : forall (e : env V) o, unwrap_vec_normalize e = Some o <->
  exists a b, wrappers e = a ++ o :: b /\ kind_of o = KNorm /\ forall p, In p a -> kind_of p <> KNorm.
Proof.
  induction e as [q|q e IH]; intros o; cbn [unwrap_vec_normalize wrappers].
  - split; [discriminate|]. intros [a [b [H _]]]. destruct a; discriminate.
  - destruct (kind_of q) eqn:E.
    + split.
      * intros H; injection H as <-. exists [], (wrappers e). repeat split; auto.
      * intros [a [b [H [Hk Ha]]]]. destruct a as [|x a]; cbn in H; injection H as -> _; [reflexivity|]. exfalso; apply (Ha x); [left; reflexivity|exact E].
    + rewrite IH. split; intros [a [b [H [Hk Ha]]]].
      * exists (q :: a), b. rewrite H. repeat split; auto. intros p [<-|Hp]; [congruence|auto].
      * destruct a as [|x a]; cbn in H; injection H as -> H; [congruence|]. exists a, b. repeat split; auto. intros p Hp; apply Ha; right; exact Hp.
    + rewrite IH. split; intros [a [b [H [Hk Ha]]]].
      * exists (q :: a), b. rewrite H. repeat split; auto. intros p [<-|Hp]; [congruence|auto].
      * destruct a as [|x a]; cbn in H; injection H as -> H; [congruence|]. exists a, b. repeat split; auto. intros p Hp; apply Ha; right; exact Hp.
Qed.
Definition sync_obj (o p : object V) : object V :=
  match kind_of o, dget "obs_rms" (own o), dget "ret_rms" (own o) with
  | KNorm, Some a, Some b => set_obj "ret_rms" b (set_obj "obs_rms" a p)
  | _, _, _ => p
  end.
Lemma sync_obj_same : forall o p, same_but_stats p (sync_obj o p).
Proof.
  intros o p. unfold sync_obj.
  destruct (kind_of o); try (repeat split; fail).
  destruct (dget "obs_rms" (own o)) as [a|]; [|repeat split]. destruct (dget "ret_rms" (own o)) as [b|]; [|repeat split].
  repeat split. intros n H1 H2. rewrite own_set. destruct (String.eqb_spec n "ret_rms"); [contradiction|]. rewrite own_set. destruct (String.eqb_spec n "obs_rms"); [contradiction|]. reflexivity.
Qed.
Lemma sync_obj_norm : forall o p a b, kind_of o = KNorm -> stats o = (Some a, Some b) -> stats (sync_obj o p) = (Some a, Some b).
Proof.
  intros o p a b Hk Hs. unfold stats in Hs. injection Hs as H1 H2. unfold sync_obj. rewrite Hk, H1, H2. unfold stats. rewrite !own_set. reflexivity.
Qed.
Lemma sync_obj_other : forall o p, kind_of o <> KNorm -> sync_obj o p = p.
Proof. intros o p H. unfold sync_obj. destruct (kind_of o); [contradiction| |]; reflexivity. Qed.
Lemma sync_step : forall o t e, sync_loop (Wrap o t) e =
  match e with Base p => (Base (sync_obj o p), false) | Wrap p e' => (Wrap (sync_obj o p) (fst (sync_loop t e')), snd (sync_loop t e')) end.
Proof.
  intros o t e. cbn [sync_loop]. unfold sync_obj.
  destruct (kind_of o), (dget "obs_rms" (own o)), (dget "ret_rms" (own o)); destruct e as [p|p e']; cbn [setattr]; try reflexivity; destruct (sync_loop t e'); reflexivity.
Qed.
Lemma sync_ok_iff : forall t (e : env V), snd (sync_loop t e) = true <-> length (wrappers t) <= length (wrappers e).
Proof.
  induction t as [o|o t IH]; intros e; [cbn; split; [lia|reflexivity]|].
  rewrite sync_step. destruct e as [p|p e']; cbn [snd wrappers length].
  - split; [discriminate|lia].
  - rewrite IH. lia.
Qed.
Lemma sync_length : forall t (e : env V), length (wrappers (fst (sync_loop t e))) = length (wrappers e).
Proof.
  induction t as [o|o t IH]; intros e; [reflexivity|].
  rewrite sync_step. destruct e as [p|p e']; cbn [fst wrappers length]; [reflexivity|]. rewrite IH. reflexivity.
Qed.
Lemma sync_nth : forall t (e : env V) i o p, nth_error (wrappers t) i = Some o -> nth_error (wrappers e) i = Some p ->
  nth_error (wrappers (fst (sync_loop t e))) i = Some (sync_obj o p).
Proof.
  induction t as [q|q t IH]; intros e i o p Ht He; [destruct i; discriminate|].
  destruct e as [r|r e']; [destruct i; discriminate|]. rewrite sync_step. cbn [fst wrappers].
  destruct i as [|i]; cbn [nth_error] in *; [injection Ht as ->; injection He as ->; reflexivity|]. apply IH; assumption.
Qed.
Lemma sync_beyond : forall t (e : env V) i, nth_error (wrappers t) i = None -> nth_error (wrappers (fst (sync_loop t e))) i = nth_error (wrappers e) i.
Proof.
  induction t as [q|q t IH]; intros e i Ht; [reflexivity|].
  rewrite sync_step. destruct e as [r|r e']; cbn [fst wrappers]; [reflexivity|].
  destruct i as [|i]; cbn [nth_error wrappers] in *; [discriminate|]. apply IH; assumption.
Qed.
Lemma sync_base : forall t (e : env V), length (wrappers t) <= length (wrappers e) -> innermost (fst (sync_loop t e)) = innermost e.
Proof.
  induction t as [o|o t IH]; intros e H; [reflexivity|].
  rewrite sync_step. destruct e as [p|p e']; cbn [wrappers length] in H; [lia|]. cbn [fst innermost]. apply IH; lia.
Qed.
Definition unvec (e : env V) : bool := match e with Wrap o _ => match kind_of o with KUnvec => true | _ => false end | Base _ => false end.
Lemma sync_eq : forall t (e : env V), kind_of (outermost t) <> KUnvec -> sync t e = sync_loop t e.
Proof. intros [o|o t] e H; [reflexivity|]. cbn in *. destruct (kind_of o); try contradiction; reflexivity. Qed.
Lemma sync_norm : forall t (e : env V), kind_of (outermost t) <> KUnvec -> normal t ->
  map kind_of (wrappers e) = map kind_of (wrappers t) ->
  snd (sync t e) = true /\ innermost (fst (sync t e)) = innermost e /\ length (wrappers (fst (sync t e))) = length (wrappers e) /\
  forall i o p q, nth_error (wrappers t) i = Some o -> nth_error (wrappers e) i = Some p -> nth_error (wrappers (fst (sync t e))) i = Some q ->
    same_but_stats p q /\ stats q = stats (if match kind_of p with KNorm => true | _ => false end then o else p).
Proof.
  intros t e Hu Hn Hk. rewrite sync_eq by assumption.
  assert (HL : length (wrappers e) = length (wrappers t)) by (rewrite <- (map_length kind_of), Hk, map_length; reflexivity).
  split; [apply sync_ok_iff; lia|]. split; [apply sync_base; lia|]. split; [apply sync_length|].
  intros i o p q Ho Hp Hq. rewrite (sync_nth t e i o p Ho Hp) in Hq. injection Hq as <-.
  assert (HK : kind_of p = kind_of o).
  { assert (H : nth_error (map kind_of (wrappers e)) i = nth_error (map kind_of (wrappers t)) i) by (rewrite Hk; reflexivity).
    rewrite (map_nth_error kind_of i _ Ho), (map_nth_error kind_of i _ Hp) in H. injection H as ->. reflexivity. }
  split; [apply sync_obj_same|]. rewrite HK.
  destruct (kind_of o) eqn:E.
  - destruct (Hn o (nth_error_In _ _ Ho) E) as [a [b Hs]]. rewrite (sync_obj_norm o p a b E Hs). symmetry. exact Hs.
  - rewrite sync_obj_other by congruence. reflexivity.
  - rewrite sync_obj_other by congruence. reflexivity.
Qed.
End Lookup.
(** ** Saving *)
Lemma has_false : forall {V} n (d : dict V), has n d = false <-> dget n d = None.
Proof. intros; unfold has; destruct (dget n d); split; congruence. Qed.
Lemma getstate_ok : forall d s, getstate d = inl s -> forall n, dget n s = if (String.eqb n "venv" || String.eqb n "class_attributes" || String.eqb n "ret")%bool then None else dget n d.
Proof.
  intros d s H n. unfold getstate in H. destruct (_ && _ && _); [|discriminate]. injection H as <-.
  rewrite !dget_del. destruct (String.eqb n "venv"), (String.eqb n "class_attributes"), (String.eqb n "ret"); reflexivity.
Qed.
Lemma load_ok_iff : forall d s v, getstate d = inl s -> (snd (load s v) = None <-> exists x, dget "obs_rms" d = Some (Rms (v_shape v) x)).
Proof.
  intros d s v H. unfold load, set_venv, setstate. rewrite dget_put. cbn [String.eqb Ascii.eqb Bool.eqb].
  unfold wrapper_init. cbn [dput dget String.eqb Ascii.eqb Bool.eqb].
  rewrite (getstate_ok d s H "obs_rms"). cbn [String.eqb Ascii.eqb Bool.eqb orb].
  destruct (dget "obs_rms" d) as [[sh x| | | | | | | ]|]; try (split; [discriminate|intros [y Hy]; discriminate]).
  unfold shape_eqb. destruct (list_eq_dec Nat.eq_dec sh (v_shape v)) as [->|N]; cbn [snd].
  - split; eauto.
  - split; [discriminate|]. intros [y Hy]. congruence.
Qed.
Lemma load_values : forall d s v, getstate d = inl s -> snd (load s v) = None ->
  dget "venv" (fst (load s v)) = Some (EnvV v) /\ dget "num_envs" (fst (load s v)) = Some (Int (v_num v)) /\
  dget "observation_space" (fst (load s v)) = Some (Space (v_shape v)) /\ dget "action_space" (fst (load s v)) = Some (Space (v_action v)) /\
  dget "ret" (fst (load s v)) = Some (Zeros (v_num v)) /\ dget "class_attributes" (fst (load s v)) <> None /\
  forall n, from_env n = false -> dget n (fst (load s v)) = dget n d.
Proof.
  intros d s v H Hok.
  assert (Hd : exists x, fst (load s v) = dput "ret" (Zeros (v_num v)) (wrapper_init v (setstate s)) /\ x = tt).
  { unfold load, set_venv, setstate in *. rewrite dget_put in *. cbn [String.eqb Ascii.eqb Bool.eqb] in *.
    destruct (dget "obs_rms" (wrapper_init v (dput "venv" NoneV s))) as [[sh x| | | | | | | ]|]; try discriminate.
    destruct (shape_eqb sh (v_shape v)); [|discriminate]. exists tt. split; reflexivity. }
  destruct Hd as [_ [-> _]].
  repeat split; try reflexivity; [discriminate|].
  intros n Hn. unfold from_env in Hn. cbn [existsb] in Hn. rewrite !Bool.orb_false_iff in Hn. destruct Hn as (H1 & H2 & H3 & H4 & H5 & H6 & _).
  unfold wrapper_init, setstate. rewrite !dget_put. rewrite H1, H2, H3, H4, H5, H6. rewrite (getstate_ok d s H n), H1, H2, H3. reflexivity.
Qed.
Lemma load_fails : forall d s v, getstate d = inl s -> (forall x, dget "obs_rms" d <> Some (Rms (v_shape v) x)) ->
  snd (load s v) = Some Incompatible /\ dget "venv" (fst (load s v)) = Some (EnvV v) /\
  forall w, set_venv w (fst (load s v)) = (fst (load s v), Some AlreadyInitialized).
Proof.
  intros d s v H Hno.
  assert (Hd : load s v = (wrapper_init v (setstate s), Some Incompatible)).
  { destruct (load s v) as [d' e] eqn:E. pose proof (load_ok_iff d s v H) as HI. rewrite E in HI. cbn [snd] in HI.
    unfold load, set_venv, setstate in E |- *. rewrite dget_put in E. cbn [String.eqb Ascii.eqb Bool.eqb] in E.
    destruct (dget "obs_rms" (wrapper_init v (dput "venv" NoneV s))) as [[sh x| | | | | | | ]|]; try (injection E as <- <-; reflexivity).
    destruct (shape_eqb sh (v_shape v)); injection E as <- <-; [|reflexivity].
    destruct (proj1 HI eq_refl) as [y Hy]. exfalso; apply (Hno y); exact Hy. }
  rewrite Hd. repeat split.
Qed.
Lemma resave_raises : forall d s, getstate d = inl s -> getstate (setstate s) = inr KeyError.
Proof.
  intros d s H. unfold getstate, setstate.
  replace (has "class_attributes" (dput "venv" NoneV s)) with false; [rewrite Bool.andb_false_r; reflexivity|].
  symmetry. apply has_false. rewrite dget_put. cbn [String.eqb Ascii.eqb Bool.eqb]. rewrite (getstate_ok d s H). reflexivity.
Qed.
Lemma setstate_obj : forall d s k, getstate d = inl s -> dget "class_attributes" k = None -> forall f e n c, dget n (setstate s ++ k) = None ->
  getattr f (Wrap (Obj KNorm c (setstate s) k) e) n = Recursion.
Proof.
  intros d s k H Hk f e n c Hn. apply unbuilt; unfold own; cbn [inst klass]; [|exact Hn].
  rewrite dget_app. unfold setstate. rewrite dget_put. cbn [String.eqb Ascii.eqb Bool.eqb]. rewrite (getstate_ok d s H). exact Hk.
Qed.
Lemma sync_unvec : forall {V} o (t e : env V), kind_of o = KUnvec -> sync (Wrap o t) e = (e, true).
Proof. intros V o t e H. unfold sync. rewrite H. reflexivity. Qed.
Lemma sync_ok : forall {V} (t e : env V), kind_of (outermost t) <> KUnvec -> (snd (sync t e) = true <-> length (wrappers t) <= length (wrappers e)).
Proof. intros V t e H. rewrite sync_eq by assumption. apply sync_ok_iff. Qed.
Lemma set_others : forall {V} (e : env V) n v, tl (objects (setattr e n v)) = tl (objects e) /\
  forall m, m <> n -> dget m (own (outermost (setattr e n v))) = dget m (own (outermost e)).
Proof.
  intros V e n v. split; [rewrite set_other; reflexivity|]. intros m Hm.
  replace (outermost (setattr e n v)) with (set_obj n v (outermost e)) by (destruct e; reflexivity).
  rewrite own_set. destruct (String.eqb_spec m n); [contradiction|reflexivity].
Qed.
