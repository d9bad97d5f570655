(** Proofs about saving and loading. *)
From Coq Require Import Ascii String List Arith ZArith Bool Lia Permutation.
From Verif Require Import SV_Model SV_Spec.
Import ListNotations.
Open Scope string_scope.

Section PyInd.
  Variable P : py -> Prop.
  Hypothesis Hn : P PNone. Hypothesis Hb : forall b, P (PBool b). Hypothesis Hi : forall z, P (PInt z). Hypothesis Hf : forall f, P (PFloat f). Hypothesis Hs : forall s, P (PStr s).
  Hypothesis Hl : forall l, Forall P l -> P (PList l). Hypothesis Ht : forall l, Forall P l -> P (PTuple l).
  Hypothesis Hd : forall l, Forall (fun x => P (snd x)) l -> P (PDict l). Hypothesis Ho : forall id a, P (PObj id a).
  Fixpoint py_nested (v : py) : P v :=
    match v with
    | PNone => Hn | PBool b => Hb b | PInt z => Hi z | PFloat f => Hf f | PStr s => Hs s
    | PList l => Hl l ((fix go (l : list py) : Forall P l := match l with [] => Forall_nil _ | x :: t => Forall_cons _ (py_nested x) (go t) end) l)
    | PTuple l => Ht l ((fix go (l : list py) : Forall P l := match l with [] => Forall_nil _ | x :: t => Forall_cons _ (py_nested x) (go t) end) l)
    | PDict l => Hd l ((fix go (l : list (key * py)) : Forall (fun x => P (snd x)) l := match l with [] => Forall_nil _ | x :: t => Forall_cons _ (py_nested (snd x)) (go t) end) l)
    | PObj id a => Ho id a
    end.
End PyInd.
Section JInd.
  Variable P : jv -> Prop.
  Hypothesis Hn : P JNull. Hypothesis Hb : forall b, P (JBool b). Hypothesis Hi : forall z, P (JInt z). Hypothesis Hf : forall f, P (JFloat f). Hypothesis Hs : forall s, P (JStr s).
  Hypothesis Hl : forall l, Forall P l -> P (JArr l). Hypothesis Hd : forall l, Forall (fun x => P (snd x)) l -> P (JObj l).
  Fixpoint jv_nested (v : jv) : P v :=
    match v with
    | JNull => Hn | JBool b => Hb b | JInt z => Hi z | JFloat f => Hf f | JStr s => Hs s
    | JArr l => Hl l ((fix go (l : list jv) : Forall P l := match l with [] => Forall_nil _ | x :: t => Forall_cons _ (jv_nested x) (go t) end) l)
    | JObj l => Hd l ((fix go (l : list (string * jv)) : Forall (fun x => P (snd x)) l := match l with [] => Forall_nil _ | x :: t => Forall_cons _ (jv_nested (snd x)) (go t) end) l)
    end.
End JInd.

(** ** Dictionaries *)
Lemma key_eqb_iff : forall a b, key_eqb a b = true <-> a = b.
Proof.
  intros [s|z|z|b0| |z] [t|y|y|b1| |y]; cbn; split; intros H; try discriminate; try congruence; try reflexivity;
    try (apply String.eqb_eq in H; congruence); try (apply Z.eqb_eq in H; congruence); try (apply eqb_prop in H; congruence);
    try (injection H as ->; first [apply String.eqb_refl|apply Z.eqb_refl|destruct b1; reflexivity]).
Qed.
Lemma key_eqb_refl : forall k, key_eqb k k = true. Proof. intros; now apply key_eqb_iff. Qed.
Notation assign := (fun d x => dset key_eqb (fst x) (snd x) d).
Definition dfind {V} (k : key) (d : list (key * V)) : option V := match find (fun x => key_eqb k (fst x)) d with Some x => Some (snd x) | None => None end.
Lemma dfind_dset : forall {V} k k' (v : V) d, dfind k (dset key_eqb k' v d) = if key_eqb k k' then Some v else dfind k d.
Proof.
  intros V k k' v d. unfold dfind. induction d as [|[k0 v0] d IH]; cbn [dset find fst].
  - destruct (key_eqb k k'); reflexivity.
  - destruct (key_eqb k' k0) eqn:E.
    + apply key_eqb_iff in E. subst k0. cbn [find fst]. destruct (key_eqb k k'); reflexivity.
    + cbn [find fst]. destruct (key_eqb k k0) eqn:F.
      * apply key_eqb_iff in F. subst k0. destruct (key_eqb k k') eqn:G; [|reflexivity]. apply key_eqb_iff in G. subst. rewrite key_eqb_refl in E. discriminate.
      * exact IH.
Qed.
Lemma dset_new : forall {V} k (v : V) d, ~ In k (map fst d) -> dset key_eqb k v d = (d ++ [(k, v)])%list.
Proof.
  induction d as [|[k0 v0] d IH]; intros H; [reflexivity|]. cbn [dset]. destruct (key_eqb k k0) eqn:E.
  - apply key_eqb_iff in E. subst. exfalso. apply H. now left.
  - cbn [app]. f_equal. apply IH. intros X. apply H. now right.
Qed.
Lemma dset_keys : forall {V} k (v : V) d, In k (map fst d) /\ map fst (dset key_eqb k v d) = map fst d \/ ~ In k (map fst d) /\ map fst (dset key_eqb k v d) = (map fst d ++ [k])%list.
Proof.
  induction d as [|[k0 v0] d IH]; [right; split; [intros []|reflexivity]|]. cbn [dset]. destruct (key_eqb k k0) eqn:E.
  - apply key_eqb_iff in E. subst. left. split; [now left|reflexivity].
  - destruct IH as [[A B]|[A B]].
    + left. split; [now right|]. cbn [map fst]. now rewrite B.
    + right. split; [|cbn [map fst]; now rewrite B]. intros [X|X]; [|contradiction]. cbn in X. subst. rewrite key_eqb_refl in E. discriminate.
Qed.
Lemma dset_nodup : forall {V} k (v : V) d, NoDup (map fst d) -> NoDup (map fst (dset key_eqb k v d)).
Proof.
  intros V k v d H. destruct (dset_keys k v d) as [[A B]|[A B]]; rewrite B; [exact H|].
  rewrite <- (rev_involutive (map fst d ++ [k])). apply NoDup_rev. rewrite rev_app_distr. cbn. constructor; [now rewrite <- in_rev|]. now apply NoDup_rev.
Qed.
Lemma fold_new : forall {V} (l d : list (key * V)), NoDup (map fst (d ++ l)) -> fold_left assign l d = (d ++ l)%list.
Proof.
  induction l as [|[k v] l IH]; intros d H; cbn [fold_left fst snd]; [now rewrite app_nil_r|].
  rewrite dset_new.
  - rewrite IH; rewrite <- app_assoc; [reflexivity|exact H].
  - rewrite map_app in H. cbn in H. apply NoDup_remove_2 in H. intros X. apply H. apply in_or_app. now left.
Qed.
Lemma fold_keys : forall {V} (l d : list (key * V)) k, In k (map fst (fold_left assign l d)) <-> In k (map fst d) \/ In k (map fst l).
Proof.
  induction l as [|[k0 v] l IH]; intros d k; cbn [fold_left fst snd map]; [cbn; tauto|]. rewrite IH. destruct (dset_keys k0 v d) as [[A B]|[A B]]; rewrite B.
  - cbn. intuition congruence.
  - rewrite in_app_iff. cbn. tauto.
Qed.
Lemma fold_find : forall {V} (l d : list (key * V)) k x, (forall y, In (k, y) l -> y = x) -> (In (k, x) l \/ dfind k d = Some x) -> dfind k (fold_left assign l d) = Some x.
Proof.
  induction l as [|[k0 v] l IH]; intros d k x A B; cbn [fold_left fst snd].
  - destruct B as [[]|B]. exact B.
  - apply IH; [intros y Y; apply A; now right|]. destruct B as [[E|B]|B].
    + injection E as -> ->. right. rewrite dfind_dset, key_eqb_refl. reflexivity.
    + now left.
    + right. rewrite dfind_dset. destruct (key_eqb k k0) eqn:E; [|exact B]. apply key_eqb_iff in E. subst. f_equal. apply A. now left.
Qed.
Lemma fold_nodup : forall {V} (l d : list (key * V)), NoDup (map fst d) -> NoDup (map fst (fold_left assign l d)).
Proof. induction l as [|[k v] l IH]; intros d H; cbn [fold_left]; [exact H|]. apply IH. now apply dset_nodup. Qed.
Lemma fold_forall : forall {V} (P : key -> V -> Prop) (l d : list (key * V)), Forall (fun x => P (fst x) (snd x)) d -> Forall (fun x => P (fst x) (snd x)) l ->
  Forall (fun x => P (fst x) (snd x)) (fold_left assign l d).
Proof.
  intros V P. assert (S1 : forall (d : list (key * V)) k v, Forall (fun x => P (fst x) (snd x)) d -> P k v -> Forall (fun x => P (fst x) (snd x)) (dset key_eqb k v d)).
  { induction d as [|[k0 v0] d IH]; intros k v D H; cbn [dset]; [constructor; auto|]. destruct (key_eqb k k0) eqn:E.
    - apply key_eqb_iff in E. subst. constructor; [exact H|now apply Forall_inv_tail in D].
    - constructor; [exact (Forall_inv D)|]. apply IH; [now apply Forall_inv_tail in D|exact H]. }
  induction l as [|[k v] l IH]; intros d D L; cbn [fold_left fst snd]; [exact D|]. apply IH; [apply S1; [exact D|exact (Forall_inv L)]|now apply Forall_inv_tail in L].
Qed.

Section Save.
  Variable int_text float_text : Z -> string.
  Variable str type_text pickle : py -> string.
  Variable unpickle : string -> option py.
  Notation dumps := (dumps int_text float_text).
  Notation key_text := (key_text int_text float_text).
  Notation serializable := (serializable int_text float_text).
  Notation wrapped := (wrapped int_text float_text str type_text pickle).
  Notation data_to_json := (data_to_json int_text float_text str type_text pickle).
  Notation json_to_data := (json_to_data unpickle).
  Notation read_item := (read_item unpickle).
  Notation read_all := (read_all unpickle).

  Fixpoint dump_all (l : list py) : option (list jv) := match l with [] => Some [] | x :: t => match dumps x, dump_all t with Some j, Some r => Some (j :: r) | _, _ => None end end.
  Fixpoint dump_fields (l : list (key * py)) : option (list (string * jv)) :=
    match l with [] => Some [] | (k, x) :: t => match key_text k, dumps x, dump_fields t with Some s, Some j, Some r => Some ((s, j) :: r) | _, _, _ => None end end.
  Lemma dumps_list : forall l, dumps (PList l) = match dump_all l with Some r => Some (JArr r) | None => None end. Proof. reflexivity. Qed.
  Lemma dumps_tuple : forall l, dumps (PTuple l) = match dump_all l with Some r => Some (JArr r) | None => None end. Proof. reflexivity. Qed.
  Lemma dumps_dict : forall l, dumps (PDict l) = match dump_fields l with Some r => Some (JObj r) | None => None end. Proof. reflexivity. Qed.
  Lemma key_text_iff : forall k, (exists s, key_text k = Some s) <-> forall id, k <> KOther id.
  Proof. intros [s|z|z|b| |z]; cbn; split; try discriminate; try (intros; eexists; reflexivity); try (intros [s E]; discriminate). intros H. exfalso. now apply (H z). Qed.

  Lemma dumps_iff : forall v, (exists j, dumps v = Some j) <-> json_ok v.
  Proof.
    assert (LL : forall l, Forall (fun v => (exists j, dumps v = Some j) <-> json_ok v) l -> ((exists r, dump_all l = Some r) <-> Forall json_ok l)).
    { induction l as [|x l IH]; intros F; [split; [constructor|intros; now exists []]|]. pose proof (Forall_inv F) as X. specialize (IH (Forall_inv_tail F)). cbn [dump_all]. split.
      - intros [r E]. destruct (dumps x) as [j|] eqn:D; [|discriminate]. destruct (dump_all l) as [r'|]; [|discriminate]. constructor; [apply X; now exists j|apply IH; now exists r'].
      - intros H. apply Forall_cons_iff in H. destruct H as [A B]. apply X in A. apply IH in B. destruct A as [j ->], B as [r ->]. now exists (j :: r). }
    apply py_nested.
    - split; intros; [constructor|now eexists].
    - split; intros; [constructor|now eexists].
    - split; intros; [constructor|now eexists].
    - split; intros; [constructor|now eexists].
    - split; intros; [constructor|now eexists].
    - intros l F. rewrite dumps_list. apply LL in F. split.
      + intros [j E]. constructor. apply F. destruct (dump_all l) as [r|]; [now exists r|discriminate].
      + intros H. inversion H. apply F in H1. destruct H1 as [r ->]. now exists (JArr r).
    - intros l F. rewrite dumps_tuple. apply LL in F. split.
      + intros [j E]. constructor. apply F. destruct (dump_all l) as [r|]; [now exists r|discriminate].
      + intros H. inversion H. apply F in H1. destruct H1 as [r ->]. now exists (JArr r).
    - intros l F. rewrite dumps_dict.
      assert (E : (exists r, dump_fields l = Some r) <-> Forall (fun x => (forall id, fst x <> KOther id) /\ json_ok (snd x)) l).
      { induction l as [|[k x] l IH]; [split; [constructor|intros; now exists []]|]. pose proof (Forall_inv F) as X. cbn [snd] in X. specialize (IH (Forall_inv_tail F)). cbn [dump_fields]. split.
        - intros [r E]. destruct (key_text k) as [s|] eqn:K; [|discriminate]. destruct (dumps x) as [j|] eqn:D; [|discriminate]. destruct (dump_fields l) as [r'|]; [|discriminate].
          constructor; [|apply IH; now exists r']. cbn [fst snd]. split; [apply key_text_iff; now exists s|apply X; now exists j].
        - intros H. apply Forall_cons_iff in H. destruct H as [[A1 A2] B]. cbn [fst snd] in *. apply key_text_iff in A1. apply X in A2. apply IH in B.
          destruct A1 as [s ->], A2 as [j ->], B as [r ->]. now eexists. }
      split.
      + intros [j D]. constructor. apply E. destruct (dump_fields l) as [r|]; [now exists r|discriminate].
      + intros H. inversion H. apply E in H1. destruct H1 as [r ->]. now eexists.
    - intros id a. split; [intros [j E]; discriminate|intros H; inversion H].
  Qed.
  Lemma serializable_iff : forall v, serializable v = true <-> json_ok v.
  Proof. intros v. unfold serializable. rewrite <- dumps_iff. destruct (dumps v); split; intros H; try discriminate; eauto. destruct H; discriminate. Qed.

  Lemma fold_map : forall {A B} (f : A -> B -> A) {C} (g : C -> B) l a, fold_left f (map g l) a = fold_left (fun a c => f a (g c)) l a.
  Proof. induction l; intros; cbn; auto. Qed.
  Lemma loads_obj : forall l, loads (JObj l) = PDict (fold_left assign (map (fun x => (KStr (fst x), loads (snd x))) l) []).
  Proof. intros l. cbn [loads]. f_equal. rewrite !fold_map. reflexivity. Qed.
  (** Whatever json reads is clean. *)
  Lemma loads_clean : forall j, clean (loads j).
  Proof.
    apply jv_nested; [constructor|intros; constructor|intros; constructor|intros; constructor|intros; constructor| |].
    - intros l F. cbn [loads]. constructor. now rewrite Forall_map.
    - intros l F. rewrite loads_obj. constructor; [apply fold_nodup; constructor|].
      apply (fold_forall (fun k v => (exists s, k = KStr s) /\ clean v)); [constructor|]. rewrite Forall_map. eapply Forall_impl; [|exact F]. cbn. intros x H. split; [now eexists|exact H].
  Qed.
  Lemma clean_same : forall v, clean v -> exists j, dumps v = Some j /\ loads j = v.
  Proof.
    apply (py_nested (fun v => clean v -> exists j, dumps v = Some j /\ loads j = v)); try (intros; eexists; split; reflexivity).
    - intros l F H. inversion H. subst. rewrite dumps_list.
      assert (E : exists r, dump_all l = Some r /\ map loads r = l).
      { clear H. induction l as [|x l IH]; [now exists []|]. apply Forall_cons_iff in F. apply Forall_cons_iff in H1. destruct F as [X F], H1 as [C H1].
        destruct (X C) as (j & J & L). destruct (IH F H1) as (r & R & M). exists (j :: r). cbn [dump_all map]. rewrite J, R, L, M. split; reflexivity. }
      destruct E as (r & -> & M). exists (JArr r). split; [reflexivity|]. cbn [loads]. now rewrite M.
    - intros l F H. inversion H.
    - intros l F H. inversion H as [| | | | | |l' N K]. subst. rewrite dumps_dict.
      assert (E : exists r, dump_fields l = Some r /\ map (fun x => (KStr (fst x), loads (snd x))) r = l).
      { clear H N. induction l as [|[k x] l IH]; [now exists []|]. apply Forall_cons_iff in F. apply Forall_cons_iff in K. destruct F as [X F], K as [[[s S] C] K]. cbn [fst snd] in *. subst k.
        destruct (X C) as (j & J & L). destruct (IH F K) as (r & R & M). exists ((s, j) :: r). cbn [dump_fields SV_Model.key_text map fst snd]. rewrite J, R, L, M. split; reflexivity. }
      destruct E as (r & -> & M). exists (JObj r). split; [reflexivity|]. rewrite loads_obj, M. f_equal. rewrite fold_new; [reflexivity|exact N].
    - intros id a H. inversion H.
  Qed.
  Lemma same_iff : forall v j, dumps v = Some j -> (loads j = v <-> clean v).
  Proof. intros v j D. split; [intros <-; apply loads_clean|]. intros C. destruct (clean_same v C) as (j' & J & L). congruence. Qed.

  (** ** Items *)
  Definition item_of (v : py) : py := if serializable v then v else wrapped v.
  Lemma json_fields : forall data j, NoDup (map fst data) -> data_to_json data = Some j ->
    exists r, Forall2 (fun x y => fst y = fst x /\ dumps (item_of (snd x)) = Some (snd y)) data r /\ fields j = Some (map (fun y => (fst y, loads (snd y))) r).
  Proof.
    intros data j N H. unfold data_to_json in H. rewrite dumps_dict in H. destruct (dump_fields _) as [r|] eqn:E; [|discriminate]. injection H as <-. exists r.
    assert (F : Forall2 (fun x y => fst y = fst x /\ dumps (item_of (snd x)) = Some (snd y)) data r).
    { clear N. revert r E. induction data as [|[k v] data IH]; intros r E; cbn [map dump_fields fst snd SV_Model.key_text] in E; [injection E as <-; constructor|].
      fold (item_of v) in E. destruct (dumps (item_of v)) as [j|] eqn:D; [|discriminate]. destruct (dump_fields _) as [r'|]; [|discriminate]. injection E as <-. constructor; [split; [reflexivity|exact D]|]. now apply IH. }
    split; [exact F|]. unfold fields. rewrite loads_obj.
    assert (K : map fst r = map fst data) by (clear - F; induction F as [|x y data r [A _] F IH]; cbn; [reflexivity|now rewrite A, IH]).
    rewrite fold_new.
    - cbn [app]. rewrite map_map. cbn. f_equal.
    - cbn [app]. rewrite map_map. cbn [fst]. rewrite <- (map_map fst KStr r), K. apply FinFun.Injective_map_NoDup; [intros a b AB; congruence|exact N].
  Qed.
  Lemma read_forall : forall custom l l', Forall2 (fun x y => fst y = fst x /\ read_item custom (fst x) (snd x) = Some (snd y)) l l' -> read_all custom l = Some l'.
  Proof. intros custom l l' F. induction F as [|[k v] [k' v'] l l' [A B] F IH]; [reflexivity|]. cbn [fst snd] in *. subst. cbn [SV_Model.read_all]. rewrite B, IH. reflexivity. Qed.

  Lemma read_plain : forall custom k v, dget k custom = None -> (forall l, v = PDict l -> ~ In (KStr marker) (map fst l)) -> read_item custom k v = Some v.
  Proof.
    intros custom k v C M. unfold SV_Model.read_item. rewrite C. destruct v; try reflexivity. specialize (M l eq_refl).
    destruct (find _ l) as [[k0 x]|] eqn:F; [|reflexivity]. apply find_some in F. destruct F as [I E]. cbn [fst] in E. apply key_eqb_iff in E. subst k0. exfalso. apply M.
    exact (in_map fst _ _ I).
  Qed.
  Lemma read_marked : forall custom k l s, dget k custom = None -> dfind (KStr marker) l = Some (PStr s) -> read_item custom k (PDict l) = unpickle s.
  Proof.
    intros custom k l s C F. unfold SV_Model.read_item. rewrite C. unfold dfind in F. change ":serialized:" with marker. destruct (find _ l) as [[k0 x]|]; [|discriminate]. cbn [snd] in F. injection F as ->. reflexivity.
  Qed.

  Hypothesis sane : sane_texts int_text float_text.
  Lemma text_marker : forall k, key_text k = Some marker -> k = KStr marker.
  Proof.
    intros [s|z|z|b| |z] H; cbn in H; try discriminate; try congruence.
    - injection H as H. destruct (sane z). contradiction.
    - injection H as H. destruct (sane z). contradiction.
    - destruct b; discriminate.
  Qed.
  Lemma dumped_find : forall l r x, dump_fields l = Some r -> NoDup (map fst l) -> dfind (KStr marker) l = Some x -> forall j, dumps x = Some j ->
    dfind (KStr marker) (fold_left assign (map (fun y => (KStr (fst y), loads (snd y))) r) []) = Some (loads j).
  Proof.
    intros l r x D N F j J.
    assert (A : In (KStr marker, x) l).
    { unfold dfind in F. destruct (find _ l) as [[k0 y]|] eqn:E; [|discriminate]. injection F as <-. apply find_some in E. destruct E as [I E]. cbn [fst] in E. apply key_eqb_iff in E. subst k0. exact I. }
    apply fold_find.
    - intros y Y. apply in_map_iff in Y. destruct Y as ([s j'] & E & I). cbn [fst snd] in E. injection E as -> <-.
      assert (exists k z, In (k, z) l /\ key_text k = Some marker /\ dumps z = Some j') as (k & z & L & K & Z').
      { clear - D I. revert r D I. induction l as [|[k z] l IH]; intros r D I; cbn [dump_fields] in D; [injection D as <-; destruct I|].
        destruct (key_text k) as [s|] eqn:K; [|discriminate]. destruct (dumps z) as [j0|] eqn:Z0; [|discriminate]. destruct (dump_fields l) as [r'|]; [|discriminate]. injection D as <-.
        destruct I as [I|I]; [injection I as -> ->; exists k, z; split; [now left|auto]|]. destruct (IH r' eq_refl I) as (k' & z' & P & Q). exists k', z'. split; [now right|auto]. }
      apply text_marker in K. subst k. assert (z = x). { clear - N A L. induction l as [|[k0 v0] l IH]; [destruct A|]. cbn in N. apply NoDup_cons_iff in N. destruct N as [N1 N2].
        destruct A as [A|A], L as [L|L]; try congruence; try (now apply IH); injection A as -> -> || injection L as -> ->; exfalso; apply N1;
          first [exact (in_map fst _ _ A)|exact (in_map fst _ _ L)]. }
      subst z. congruence.
    - left. clear - D A J. revert r D. induction l as [|[k z] l IH]; intros r D; [destruct A|]. cbn [dump_fields] in D.
      destruct (key_text k) as [s|] eqn:K; [|discriminate]. destruct (dumps z) as [j0|] eqn:Z0; [|discriminate]. destruct (dump_fields l) as [r'|]; [|discriminate]. injection D as <-.
      destruct A as [A|A].
      + injection A as -> ->. cbn in K. injection K as <-. left. cbn. congruence.
      + right. now apply IH.
  Qed.
  (** ** Pickled values *)
  Definition entries (v : py) : list (key * py) := map (fun x => (fst x, if serializable (snd x) then snd x else PStr (str (snd x)))) (items v).
  Lemma wrapped_eq : forall v, wrapped v = PDict (fold_left assign (entries v) [(KStr ":type:", PStr (type_text v)); (KStr marker, PStr (pickle v))]).
  Proof. intros v. unfold SV_Model.wrapped, entries. f_equal. rewrite fold_map. reflexivity. Qed.
  Lemma entries_keys : forall v, map fst (entries v) = map fst (items v).
  Proof. intros v. unfold entries. rewrite map_map. now apply map_ext. Qed.
  Lemma base_nodup : forall v : py, NoDup (map fst [(KStr ":type:", PStr (type_text v)); (KStr marker, PStr (pickle v))]).
  Proof. intros v. repeat constructor; cbn; intuition discriminate. Qed.
  Lemma wrapped_dumps : forall v j, dumps (wrapped v) = Some j -> forall x jx, dfind (KStr marker) (fold_left assign (entries v) [(KStr ":type:", PStr (type_text v)); (KStr marker, PStr (pickle v))]) = Some x ->
    dumps x = Some jx -> exists l, loads j = PDict l /\ dfind (KStr marker) l = Some (loads jx).
  Proof.
    intros v j D x jx F X. rewrite wrapped_eq, dumps_dict in D. destruct (dump_fields _) as [r|] eqn:E; [|discriminate]. injection D as <-. rewrite loads_obj. eexists. split; [reflexivity|].
    eapply dumped_find; [exact E| |exact F|exact X]. apply fold_nodup, base_nodup.
  Qed.
  Lemma names_items : forall v, ordinary_names v -> Forall ordinary (map fst (items v)).
  Proof. intros [| | | | | |l|l|id [a|]] H; cbn in *; try constructor; try exact H. rewrite map_map. cbn. exact H. Qed.
  Lemma read_pickled : forall custom k v j, dget k custom = None -> ordinary_names v -> dumps (wrapped v) = Some j -> read_item custom k (loads j) = unpickle (pickle v).
  Proof.
    intros custom k v j C O D. apply names_items in O.
    assert (F : dfind (KStr marker) (fold_left assign (entries v) [(KStr ":type:", PStr (type_text v)); (KStr marker, PStr (pickle v))]) = Some (PStr (pickle v))).
    { apply fold_find; [|right; reflexivity]. intros y Y. exfalso. apply (in_map fst) in Y. rewrite entries_keys in Y. cbn in Y. rewrite Forall_forall in O. specialize (O _ Y). cbn in O. contradiction. }
    destruct (wrapped_dumps v j D _ (JStr (pickle v)) F eq_refl) as (l & L & G). rewrite L. cbn [loads] in G. now apply read_marked.
  Qed.

  (** ** Storing succeeds *)
  Lemma wrapped_ok : forall v, Forall (fun k => forall id, k <> KOther id) (map fst (items v)) -> json_ok (wrapped v).
  Proof.
    intros v H. rewrite wrapped_eq. constructor. apply (fold_forall (fun k x => (forall id, k <> KOther id) /\ json_ok x)).
    - repeat constructor; discriminate.
    - unfold entries. rewrite Forall_map. cbn [fst snd]. rewrite Forall_map in H. eapply Forall_impl; [|exact H]. cbn. intros x K. split; [exact K|]. destruct (serializable (snd x)) eqn:S'; [now apply serializable_iff|constructor].
  Qed.
  Lemma stores_iff : forall data, (exists j, data_to_json data = Some j) <-> Forall (fun x => json_ok (item_of (snd x))) data.
  Proof.
    intros data. unfold data_to_json. rewrite dumps_iff. split.
    - intros H. inversion H. subst. rewrite Forall_map in H1. eapply Forall_impl; [|exact H1]. cbn. intros x [_ K]. exact K.
    - intros H. constructor. rewrite Forall_map. eapply Forall_impl; [|exact H]. cbn. intros x K. split; [discriminate|exact K].
  Qed.
  Lemma ordinary_other : forall k, ordinary k -> forall id, k <> KOther id. Proof. intros k H id ->. exact H. Qed.

  Definition kept (v : py) : Prop := plain_item v \/ pickled_item pickle unpickle v.
  Lemma clean_ok : forall v, clean v -> json_ok v.
  Proof. intros v C. apply dumps_iff. destruct (clean_same v C) as (j & J & _). now exists j. Qed.
  Lemma kept_ok : forall v, kept v -> json_ok (item_of v).
  Proof.
    intros v [[C _]|(N & _ & O)]; unfold item_of.
    - rewrite (proj2 (serializable_iff v) (clean_ok v C)). now apply clean_ok.
    - destruct (serializable v) eqn:S'; [apply serializable_iff in S'; contradiction|]. apply wrapped_ok. eapply Forall_impl; [|exact (names_items v O)]. intros; now apply ordinary_other.
  Qed.
  Lemma kept_read : forall custom k v j, dget k custom = None -> kept v -> dumps (item_of v) = Some j -> read_item custom k (loads j) = Some v.
  Proof.
    intros custom k v j C [[Cl M]|(N & U & O)] D; unfold item_of in D.
    - rewrite (proj2 (serializable_iff v) (clean_ok v Cl)) in D. rewrite (proj2 (same_iff v j D) Cl). now apply read_plain.
    - destruct (serializable v) eqn:S'; [apply serializable_iff in S'; contradiction|]. rewrite <- U. now apply read_pickled.
  Qed.
  Lemma read_custom : forall custom k v c, dget k custom = Some c -> read_item custom k v = Some c.
  Proof. intros custom k v c H. unfold SV_Model.read_item. now rewrite H. Qed.

  Lemma load_custom : forall data custom j, NoDup (map fst data) -> data_to_json data = Some j ->
    (forall k v, In (k, v) data -> kept v \/ In k (map fst custom)) -> json_to_data custom j = Some (map (or_custom custom) data).
  Proof.
    intros data custom j N H K. destruct (json_fields data j N H) as (r & F & E). unfold json_to_data. rewrite E. apply read_forall. clear E H N.
    induction F as [|[k v] [k' j'] data r [A B] F IH]; [constructor|]. cbn [map fst snd] in *. subst k'. constructor.
    - cbn [fst snd or_custom]. split; [reflexivity|]. 
      destruct (find (fun x => k =? fst x) custom) as [c|] eqn:G.
      + apply read_custom. unfold dget. now rewrite G.
      + assert (Dg : dget k custom = None) by (unfold dget; now rewrite G). apply kept_read; auto.
        destruct (K k v (or_introl eq_refl)) as [Kp|Kp]; [exact Kp|]. exfalso. apply in_map_iff in Kp. destruct Kp as (c & E & I). apply (find_none _ _ G) in I. rewrite E, String.eqb_refl in I. discriminate.
    - apply IH. intros. apply K. now right.
  Qed.
  Lemma roundtrip : forall data, NoDup (map fst data) -> (forall k v, In (k, v) data -> kept v) -> exists j, data_to_json data = Some j /\ json_to_data [] j = Some data.
  Proof.
    intros data N K. assert (St : exists j, data_to_json data = Some j).
    { apply stores_iff. apply Forall_forall. intros [k v] I. apply kept_ok. now apply (K k). }
    destruct St as [j J]. exists j. split; [exact J|]. rewrite (load_custom data [] j N J) by (intros; left; eauto). f_equal. transitivity (map (fun x => x) data); [|apply map_id]. apply map_ext. intros [k v]. reflexivity.
  Qed.
  (** One value. *)
  Lemma one_value : forall k v, json_ok v -> (forall l, v = PDict l -> ~ In (KStr marker) (map fst l)) ->
    exists j w, data_to_json [(k, v)] = Some j /\ json_to_data [] j = Some [(k, w)] /\ (w = v <-> clean v).
  Proof.
    intros k v O M. assert (St : exists j, data_to_json [(k, v)] = Some j). { apply stores_iff. constructor; [|constructor]. cbn. unfold item_of. now rewrite (proj2 (serializable_iff v) O). }
    destruct St as [j J]. destruct (json_fields [(k, v)] j) as (r & F & E); [repeat constructor; intros []|exact J|]. inversion F as [|x y d r' [A B] F' X Y]. subst. inversion F'. subst. destruct y as [k' j']. cbn [fst snd] in *. subst k'.
    unfold item_of in B. rewrite (proj2 (serializable_iff v) O) in B. exists j, (loads j'). split; [exact J|]. split; [|now apply same_iff].
    unfold json_to_data. rewrite E. apply read_forall. cbn [map fst snd]. constructor; [|constructor]. split; [reflexivity|]. cbn [fst snd]. apply read_plain; [reflexivity|].
    intros l L X. destruct v as [| | | | |l0|l0|l0|]; try (cbn in B; injection B as <-; discriminate L).
    - rewrite dumps_list in B. destruct (dump_all l0); [|discriminate]. injection B as <-. discriminate L.
    - rewrite dumps_tuple in B. destruct (dump_all l0); [|discriminate]. injection B as <-. discriminate L.
    - rewrite dumps_dict in B. destruct (dump_fields l0) as [r|] eqn:D; [|discriminate]. injection B as <-. rewrite loads_obj in L. injection L as <-. apply fold_keys in X. destruct X as [[]|X].
      rewrite map_map in X. apply in_map_iff in X. destruct X as ([s j0] & Ek & I). cbn in Ek. injection Ek as ->. apply (M l0 eq_refl). clear - D I sane. revert r D I.
      induction l0 as [|[k z] l IH]; intros r D I; cbn [dump_fields] in D; [injection D as <-; destruct I|].
      destruct (key_text k) as [s|] eqn:K; [|discriminate]. destruct (dumps z) as [j1|]; [|discriminate]. destruct (dump_fields l) as [r'|]; [|discriminate]. injection D as <-.
      destruct I as [I|I]; [injection I as -> _; left; cbn; now apply text_marker|right; now apply (IH r')].
    - discriminate.
  Qed.
  Lemma one_read : forall k v j r, serializable v = true -> dumps v = Some j -> read_item [] k (loads j) = r ->
    exists t, data_to_json [(k, v)] = Some t /\ json_to_data [] t = match r with Some w => Some [(k, w)] | None => None end.
  Proof.
    intros k v j r S' D R. assert (T : data_to_json [(k, v)] = Some (JObj [(k, j)])).
    { unfold data_to_json. rewrite dumps_dict. cbn [map dump_fields fst snd SV_Model.key_text]. rewrite S', D. reflexivity. }
    exists (JObj [(k, j)]). split; [exact T|]. unfold json_to_data, fields. cbn [loads fold_left dset map fst snd SV_Model.read_all]. rewrite R. destruct r; reflexivity.
  Qed.
  Lemma tuple_list : forall k l, Forall clean l -> exists j, data_to_json [(k, PTuple l)] = Some j /\ json_to_data [] j = Some [(k, PList l)].
  Proof.
    intros k l C. destruct (clean_same (PList l) (cl_list l C)) as (j & J & L).
    assert (D : dumps (PTuple l) = Some j) by exact J.
    apply (one_read k (PTuple l) j (Some (PList l))); [unfold serializable; now rewrite D|exact D|]. rewrite L. reflexivity.
  Qed.
  Lemma keys_collide : forall k z a b, clean a -> clean b -> exists j, data_to_json [(k, PDict [(KInt z, a); (KStr (int_text z), b)])] = Some j /\
    json_to_data [] j = Some [(k, PDict [(KStr (int_text z), b)])].
  Proof.
    intros k z a b A B. destruct (clean_same a A) as (ja & Ja & La). destruct (clean_same b B) as (jb & Jb & Lb).
    assert (D : dumps (PDict [(KInt z, a); (KStr (int_text z), b)]) = Some (JObj [(int_text z, ja); (int_text z, jb)])) by (rewrite dumps_dict; cbn [dump_fields SV_Model.key_text]; rewrite Ja, Jb; reflexivity).
    apply (one_read k _ (JObj [(int_text z, ja); (int_text z, jb)]) (Some (PDict [(KStr (int_text z), b)]))); [unfold serializable; now rewrite D|exact D|].
    assert (Lj : loads (JObj [(int_text z, ja); (int_text z, jb)]) = PDict [(KStr (int_text z), b)]).
    { rewrite loads_obj. cbn [map fst snd fold_left dset]. rewrite key_eqb_refl. now rewrite Lb. }
    rewrite Lj. apply read_plain; [reflexivity|]. intros l E. injection E as <-. cbn. intros [X|[]]. injection X as X. destruct (sane z). contradiction.
  Qed.
  Lemma marked_dict : forall k l s, clean (PDict l) -> In (KStr marker, PStr s) l ->
    exists j, data_to_json [(k, PDict l)] = Some j /\ json_to_data [] j = match unpickle s with Some w => Some [(k, w)] | None => None end.
  Proof.
    intros k l s C I. destruct (clean_same _ C) as (j & J & L). apply (one_read k _ j (unpickle s)); [unfold serializable; now rewrite J|exact J|]. rewrite L. apply read_marked; [reflexivity|].
    inversion C as [| | | | | |l' N K]. subst. clear - I N. unfold dfind. induction l as [|[k0 v0] l IH]; [destruct I|]. cbn [find fst]. cbn in N. apply NoDup_cons_iff in N. destruct N as [N1 N2]. destruct (key_eqb (KStr marker) k0) eqn:E.
    - apply key_eqb_iff in E. subst k0. destruct I as [I|I]; [injection I as ->; reflexivity|]. exfalso. apply N1. exact (in_map fst _ _ I).
    - destruct I as [I|I]; [injection I as -> ->; rewrite key_eqb_refl in E; discriminate|]. now apply IH.
  Qed.
  Lemma marked_object : forall k id l s, NoDup (map fst l) -> In (marker, PStr s) l ->
    exists j, data_to_json [(k, PObj id (Some l))] = Some j /\ json_to_data [] j = match unpickle s with Some w => Some [(k, w)] | None => None end.
  Proof.
    intros k id l s N I. set (v := PObj id (Some l)).
    assert (W : json_ok (wrapped v)). { apply wrapped_ok. cbn. rewrite map_map. rewrite Forall_map, Forall_forall. intros x _ i. discriminate. }
    apply dumps_iff in W. destruct W as [jw W].
    assert (T : data_to_json [(k, v)] = Some (JObj [(k, jw)])). { unfold data_to_json. rewrite dumps_dict. cbn [map dump_fields fst snd SV_Model.key_text]. change (serializable v) with false. cbn [SV_Model.key_text]. rewrite W. reflexivity. }
    exists (JObj [(k, jw)]). split; [exact T|].
    assert (F : dfind (KStr marker) (fold_left assign (entries v) [(KStr ":type:", PStr (type_text v)); (KStr marker, PStr (pickle v))]) = Some (PStr s)).
    { apply fold_find.
      - intros y Y. unfold entries, v in Y. cbn [items] in Y. rewrite map_map in Y. apply in_map_iff in Y. destruct Y as ([n x] & E & X). cbn [fst snd] in E. injection E as -> <-.
        assert (x = PStr s). { clear - N I X. induction l as [|[k0 v0] l IH]; [destruct I|]. cbn in N. apply NoDup_cons_iff in N. destruct N as [N1 N2].
          destruct I as [I|I], X as [X|X]; try congruence; try (now apply IH); injection I as -> -> || injection X as -> ->; exfalso; apply N1;
            first [exact (in_map fst _ _ I)|exact (in_map fst _ _ X)]. }
        subst x. reflexivity.
      - left. unfold entries, v. cbn [items]. rewrite map_map. apply in_map_iff. exists (marker, PStr s). split; [reflexivity|exact I]. }
    destruct (wrapped_dumps v jw W _ (JStr s) F eq_refl) as (l' & L & G).
    unfold json_to_data, fields. cbn [loads map fst snd fold_left dset]. rewrite L. cbn [SV_Model.read_all]. rewrite (read_marked [] k l' s eq_refl G). destruct (unpickle s); reflexivity.
  Qed.
  Lemma other_key : forall data k l id, In (k, PDict l) data -> In (KOther id) (map fst l) -> data_to_json data = None.
  Proof.
    intros data k l id I K. destruct (data_to_json data) as [j|] eqn:E; [|reflexivity]. exfalso.
    assert (St : exists j, data_to_json data = Some j) by now exists j. apply stores_iff in St. rewrite Forall_forall in St. specialize (St _ I). cbn in St. unfold item_of in St.
    destruct (serializable (PDict l)) eqn:S'.
    - inversion St. subst. rewrite Forall_forall in H0. apply in_map_iff in K. destruct K as (x & X & Y). destruct (H0 x Y) as [A _]. now apply (A id).
    - rewrite wrapped_eq in St. inversion St. subst. rewrite Forall_forall in H0.
      assert (A : In (KOther id) (map fst (fold_left assign (entries (PDict l)) [(KStr ":type:", PStr (type_text (PDict l))); (KStr marker, PStr (pickle (PDict l)))]))). { apply fold_keys. right. rewrite entries_keys. exact K. }
      apply in_map_iff in A. destruct A as (x & X & Y). destruct (H0 x Y) as [B _]. now apply (B id).
  Qed.
End Save.
