From Coq Require Import Ascii String List Arith ZArith QArith Bool Lia Permutation.
From Verif Require Import LG_Model LG_Spec.
Import ListNotations.
Open Scope nat_scope.

Lemma text_eqb_spec : forall a b, reflect (a = b) (text_eqb a b).
Proof. intros. unfold text_eqb. destruct (list_eq_dec ascii_dec a b); now constructor. Qed.
Lemma text_eqb_refl : forall a, text_eqb a a = true.
Proof. intro a. destruct (text_eqb_spec a a); auto. Qed.
Lemma get_put : forall B k j (v : B) d, get k (put j v d) = if text_eqb k j then Some v else get k d.
Proof.
  induction d as [|[i w] d IH]; cbn. reflexivity. destruct (text_eqb_spec j i) as [<-|N]; cbn.
  - now destruct (text_eqb k j).
  - rewrite IH. destruct (text_eqb_spec k i) as [->|]; auto. destruct (text_eqb_spec i j) as [E|]; auto. congruence.
Qed.
Lemma get_app : forall B k (d e : dict B), get k (d ++ e) = match get k d with Some v => Some v | None => get k e end.
Proof. induction d as [|[i w] d IH]; intros e; cbn; auto. destruct (text_eqb k i); auto. Qed.

(** ** One key *)
Section One.
  Context {W : Type}.
  Variable write : W -> dict val -> W * dict val * bool.
  Notation history := (history write).
  Notation do := (do write).
  Definition same (k : text) (l l' : @logger W) : Prop := get k (vals l) = get k (vals l') /\ get k (cnts l) = get k (cnts l').
  Lemma touch_get : forall k j (l : @logger W), get k (touch j l) = if text_eqb k j then (match get k (vals l) with Some v => Some v | None => Some (Num 0) end) else get k (vals l).
  Proof.
    intros. unfold touch, has. destruct (get j (vals l)) eqn:E.
    - destruct (text_eqb_spec k j) as [->|]; auto. now rewrite E.
    - rewrite get_app. destruct (text_eqb_spec k j) as [->|N].
      + rewrite E. cbn. now rewrite text_eqb_refl.
      + destruct (get k (vals l)); auto. cbn. destruct (text_eqb_spec k j); auto. congruence.
  Qed.
  Lemma do_other : forall k o l, o <> Dump -> concerns k o = false -> same k (fst (do o l)) l.
  Proof.
    intros k o l N H. destruct o as [j v|j v|name dt| |z]; cbn [concerns] in H; try congruence; cbn [LG_Model.do].
    - unfold logkv, same. cbn. now rewrite get_put, H.
    - unfold logkv_mean. assert (R : forall w, get k (put j w (vals l)) = get k (vals l)) by (intro; now rewrite get_put, H).
      destruct v; try (split; cbn; auto; fail).
      all: destruct (lift2 _ _ _); split; cbn; rewrite ?get_put, ?touch_get, ?H; auto.
    - unfold profile. destruct (lift2 _ _ _); split; cbn [vals cnts fst]; rewrite ?get_put, ?touch_get, ?H; auto.
    - split; reflexivity.
  Qed.
  Lemma do_same : forall k o l l', concerns k o = true -> same k l l' -> same k (fst (do o l)) (fst (do o l')).
  Proof.
    intros k o l l' H [S1 S2]. destruct o as [j v|j v|name dt| |z]; cbn [concerns] in H; try congruence; cbn [LG_Model.do].
    all: match goal with H : text_eqb ?y ?x = true |- _ => destruct (text_eqb_spec y x) as [E|]; [|congruence]; clear H end.
    - subst j. split; cbn; rewrite ?get_put, ?text_eqb_refl; auto.
    - subst j. unfold logkv_mean, val_of, cnt_of. rewrite S1, S2.
      destruct v; try (split; cbn; rewrite ?get_put, ?text_eqb_refl; auto; fail).
      all: destruct (lift2 _ _ _); split; cbn; rewrite ?get_put, ?touch_get, ?text_eqb_refl, ?S1; auto.
    - rewrite <- E. unfold profile, val_of. rewrite S1. destruct (lift2 _ _ _); split; cbn [vals cnts fst]; rewrite ?get_put, ?touch_get, ?text_eqb_refl, ?S1; auto.
  Qed.
  Lemma history_on : forall k ops l l', no_dump ops -> same k l l' -> same k (history ops l) (history (on k ops) l').
  Proof.
    induction ops as [|o ops IH]; intros l l' N Hs; auto. assert (N' : no_dump ops) by (intro; apply N; now right).
    cbn [LG_Model.history on filter]. destruct (concerns k o) eqn:C.
    - cbn [LG_Model.history]. apply IH; auto. now apply do_same.
    - apply IH; auto. destruct (do_other k o l) as [E1 E2]; auto. intro E. apply N. now left. destruct Hs. split; congruence.
  Qed.
  Lemma history_app : forall a b l, history (a ++ b) l = history b (history a l).
  Proof. induction a as [|o a IH]; intros; auto. cbn. apply IH. Qed.

  Lemma log_last : forall ops1 ops2 k v l, no_dump ops2 -> on k ops2 = [] -> get k (vals (history (ops1 ++ [Log k v] ++ ops2) l)) = Some v.
  Proof.
    intros. rewrite !history_app. cbn [LG_Model.history]. set (l1 := fst _).
    destruct (history_on k ops2 l1 l1) as [E _]; auto. split; auto. rewrite E, H0. cbn. subst l1. cbn. now rewrite get_put, text_eqb_refl.
  Qed.
  Lemma log_absent : forall ops k l, no_dump ops -> on k ops = [] -> get k (vals (history ops l)) = get k (vals l).
  Proof. intros. destruct (history_on k ops l l) as [E _]; auto. split; auto. now rewrite E, H0. Qed.

  Definition fresh_key (k : text) (l : @logger W) : Prop := get k (vals l) = None /\ get k (cnts l) = None.
  (** A run of means from a value a counted c times. *)
  Lemma nz : forall c, ~ (inject_Z (Z.of_nat c + 1) == 0)%Q.
  Proof. intros c H. unfold Qeq, inject_Z in H. cbn in H. lia. Qed.
  Lemma inj_S : forall c, (inject_Z (Z.of_nat (S c)) == inject_Z (Z.of_nat c) + 1)%Q.
  Proof. intro c. rewrite Nat2Z.inj_succ. unfold Z.succ. rewrite inject_Z_plus. reflexivity. Qed.
  Lemma average_eq : forall c a x, (average c a x * inject_Z (Z.of_nat (S c)) == a * inject_Z (Z.of_nat c) + x)%Q.
  Proof.
    intros c a x. unfold average. rewrite inj_S. replace (inject_Z (Z.of_nat c + 1)) with (inject_Z (Z.of_nat c) + inject_Z 1)%Q by (now rewrite inject_Z_plus).
    change (inject_Z 1) with 1%Q. field. intro H. apply (nz c). rewrite inject_Z_plus. exact H.
  Qed.
  Lemma means : forall k xs l a c, val_of k l = Num a -> cnt_of k l = c -> xs <> [] ->
    exists q, get k (vals (history (map (fun x => Mean k (Num x)) xs) l)) = Some (Num q) /\
      get k (cnts (history (map (fun x => Mean k (Num x)) xs) l)) = Some (c + length xs) /\
      (q * inject_Z (Z.of_nat (c + length xs)) == a * inject_Z (Z.of_nat c) + qsum xs)%Q.
  Proof.
    induction xs as [|x xs IH]; intros l a c Hv Hc N. congruence.
    cbn [map LG_Model.history]. set (l1 := fst _).
    assert (E : l1 = Lg (put k (Num (average c a x)) (vals l)) (put k (1 + c) (cnts l)) (level l) (outs l)).
    { subst l1. cbn [LG_Model.do]. unfold logkv_mean. rewrite Hv, Hc. reflexivity. }
    assert (V : get k (vals l1) = Some (Num (average c a x))) by (rewrite E; cbn; now rewrite get_put, text_eqb_refl).
    assert (C : get k (cnts l1) = Some (1 + c)) by (rewrite E; cbn [cnts]; now rewrite get_put, text_eqb_refl).
    destruct xs as [|y xs].
    - exists (average c a x). cbn [map LG_Model.history length qsum fold_right]. split; [auto|split].
      + rewrite C. f_equal. lia.
      + replace (c + 1) with (S c) by lia. rewrite average_eq. ring.
    - destruct (IH l1 (average c a x) (1 + c)) as [q [Q1 [Q2 Q3]]]. unfold val_of. now rewrite V. unfold cnt_of. now rewrite C. discriminate.
      exists q. split; [auto|split]. rewrite Q2. f_equal. cbn [length]. lia.
      replace (c + length (x :: y :: xs)) with (1 + c + length (y :: xs)) by (cbn [length]; lia). rewrite Q3. change (1 + c) with (S c). rewrite average_eq. cbn [qsum fold_right]. ring.
  Qed.
  Lemma mean_value : forall ops k xs l, fresh_key k l -> no_dump ops -> on k ops = map (fun x => Mean k (Num x)) xs -> xs <> [] ->
    exists q, get k (vals (history ops l)) = Some (Num q) /\ (q == qsum xs / count xs)%Q.
  Proof.
    intros ops k xs l [F1 F2] N H X. destruct (history_on k ops l l) as [E _]; auto. split; auto. rewrite E, H.
    destruct (means k xs l 0 0) as [q [Q1 [_ Q3]]]; auto. unfold val_of. now rewrite F1. unfold cnt_of. now rewrite F2.
    exists q. split; auto. cbn [Nat.add] in Q3. unfold count.
    assert (Z : ~ (inject_Z (Z.of_nat (length xs)) == 0)%Q). { destruct xs; [congruence|]. cbn [length]. rewrite Nat2Z.inj_succ. apply (nz (length xs)). }
    rewrite <- (Qmult_1_r q). rewrite <- (Qmult_inv_r _ Z). rewrite Qmult_assoc, Q3. unfold Qdiv. ring.
  Qed.
  Lemma means_count : forall k xs l c, cnt_of k l = c -> (exists a, val_of k l = Num a) -> cnt_of k (history (map (fun x => Mean k (Num x)) xs) l) = c + length xs.
  Proof.
    intros k xs l c Hc [a Ha]. destruct xs as [|x xs]. cbn. lia. destruct (means k (x :: xs) l a c) as [q [_ [Q2 _]]]; auto. discriminate. unfold cnt_of. now rewrite Q2.
  Qed.
  Lemma mixed_value : forall ops k xs1 a xs2 l, fresh_key k l -> no_dump ops ->
    on k ops = map (fun x => Mean k (Num x)) xs1 ++ [Log k (Num a)] ++ map (fun x => Mean k (Num x)) xs2 -> xs2 <> [] ->
    exists q, get k (vals (history ops l)) = Some (Num q) /\ (q == (a * count xs1 + qsum xs2) / (count xs1 + count xs2))%Q.
  Proof.
    intros ops k xs1 a xs2 l [F1 F2] N H X. destruct (history_on k ops l l) as [E _]; auto. split; auto. rewrite E, H.
    rewrite !history_app. cbn [LG_Model.history]. set (l1 := history _ l). set (l2 := fst _).
    assert (C : cnt_of k l2 = length xs1).
    { unfold l2. cbn. unfold cnt_of. cbn. fold (cnt_of k l1). unfold l1. rewrite (means_count k xs1 l 0); auto. unfold cnt_of. now rewrite F2. exists 0%Q. unfold val_of. now rewrite F1. }
    assert (V : val_of k l2 = Num a) by (unfold l2, val_of; cbn; now rewrite get_put, text_eqb_refl).
    destruct (means k xs2 l2 a (length xs1)) as [q [Q1 [_ Q3]]]; auto. exists q. split; auto. unfold count.
    rewrite Nat2Z.inj_add, inject_Z_plus in Q3. rewrite <- Q3.
    assert (Z : ~ (inject_Z (Z.of_nat (length xs1)) + inject_Z (Z.of_nat (length xs2)) == 0)%Q).
    { rewrite <- inject_Z_plus, <- Nat2Z.inj_add. destruct xs2; [congruence|]. cbn [length]. rewrite Nat.add_succ_r, Nat2Z.inj_succ. apply nz. }
    field. exact Z.
  Qed.
  Lemma profile_value : forall ops name dts l, fresh_key (t "wait_" ++ name) l -> no_dump ops -> on (t "wait_" ++ name) ops = map (Profile name) dts -> dts <> [] ->
    exists q, get (t "wait_" ++ name) (vals (history ops l)) = Some (Num q) /\ (q == qsum dts)%Q.
  Proof.
    intros ops name dts l [F1 F2] N H X. destruct (history_on (t "wait_" ++ name) ops l l) as [E _]; auto. split; auto. rewrite E, H. clear E H N ops F2.
    assert (G : forall dts l a, val_of (t "wait_" ++ name) l = Num a -> dts <> [] -> exists q, get (t "wait_" ++ name) (vals (history (map (Profile name) dts) l)) = Some (Num q) /\ (q == a + qsum dts)%Q).
    { clear. induction dts as [|x dts IH]; intros l a V X. congruence. cbn [map LG_Model.history]. set (l1 := fst _).
      assert (V1 : get (t "wait_" ++ name) (vals l1) = Some (Num (a + x))).
      { subst l1. cbn [LG_Model.do]. unfold profile. rewrite V. cbn [lift2 fst vals]. now rewrite get_put, text_eqb_refl. }
      destruct dts as [|y dts].
      - exists (a + x)%Q. split. exact V1. cbn. ring.
      - destruct (IH l1 (a + x)%Q) as [q [Q1 Q2]]. unfold val_of. now rewrite V1. discriminate. exists q. split. exact Q1. rewrite Q2. cbn. ring. }
    destruct (G dts l 0%Q) as [q [Q1 Q2]]; auto. unfold val_of. now rewrite F1. exists q. split; auto. rewrite Q2. ring.
  Qed.
  Lemma none_raises : forall k (l : @logger W) v, get k (vals l) = Some Nothing -> v <> Nothing -> snd (logkv_mean k v l) = true.
  Proof. intros k l v H N. unfold logkv_mean, val_of. rewrite H. destruct v; try reflexivity. congruence. Qed.

  (** ** Dumps *)
  Lemma do_level : forall o l, no_level [o] -> level (fst (do o l)) = level l.
  Proof.
    intros o l H. destruct o as [j v|j v|name dt| |z]; cbn [LG_Model.do]; auto.
    - unfold logkv_mean. destruct v; auto; destruct (lift2 _ _ _); auto.
    - unfold profile. destruct (lift2 _ _ _); auto.
    - unfold dumpkvs. destruct (level l =? DISABLED)%Z; auto. destruct (write _ _) as [[o' d] [|]]; auto.
    - destruct (H z). now left.
  Qed.
  Lemma do_outs : forall o l, o <> Dump -> outs (fst (do o l)) = outs l.
  Proof.
    intros o l H. destruct o as [j v|j v|name dt| |z]; cbn [LG_Model.do]; auto; try congruence.
    - unfold logkv_mean. destruct v; auto; destruct (lift2 _ _ _); auto.
    - unfold profile. destruct (lift2 _ _ _); auto.
  Qed.
  Lemma history_keeps : forall ops l, no_dump ops -> no_level ops -> outs (history ops l) = outs l /\ level (history ops l) = level l.
  Proof.
    induction ops as [|o ops IH]; intros l N L; auto. cbn. destruct (IH (fst (do o l))) as [E1 E2]. intro; apply N; now right. intros z Hz; apply (L z); now right.
    rewrite E1, E2. split. apply do_outs. intro; apply N; now left. apply do_level. intros z [Hz|[]]. apply (L z). now left.
  Qed.
  Lemma dumps_acc : (forall o d, snd (write o d) = false) -> forall ops acc z o, z <> DISABLED -> no_level ops -> no_level acc -> no_dump acc ->
    outs (history ops (history acc (Lg [] [] z o))) =
    fold_left (fun o it => fst (fst (write o (vals (history it (Lg [] [] z o)))))) (iterations acc ops) o.
  Proof.
    intro Hw. induction ops as [|p ops IH]; intros acc z o Hz L La Na. cbn. now destruct (history_keeps acc (Lg [] [] z o) Na La) as [-> _].
    assert (L' : no_level ops) by (intros y Hy; apply (L y); now right).
    assert (G : p <> Dump -> outs (history (p :: ops) (history acc (Lg [] [] z o))) = fold_left (fun o it => fst (fst (write o (vals (history it (Lg [] [] z o)))))) (iterations (acc ++ [p]) ops) o).
    { intro Np. cbn [LG_Model.history]. rewrite <- (IH (acc ++ [p]) z o); auto.
      - rewrite history_app. reflexivity.
      - intros y Hy. apply in_app_iff in Hy. destruct Hy as [Hy|[Hy|[]]]. now apply (La y). apply (L y). now left.
      - intro Hy. apply in_app_iff in Hy. destruct Hy as [Hy|[Hy|[]]]; auto. }
    destruct p as [j v|j v|name dt| |y]; try (apply G; discriminate).
    cbn [LG_Model.history iterations fold_left LG_Model.do]. destruct (history_keeps acc (Lg [] [] z o) Na La) as [E1 E2].
    unfold dumpkvs. rewrite E2, E1. cbn [level outs]. replace (z =? DISABLED)%Z with false by (symmetry; now apply Z.eqb_neq).
    pose proof (Hw o (vals (history acc (Lg [] [] z o)))) as Hd. destruct (write o _) as [[o' d] b] eqn:Ew. cbn in Hd. subst b. cbn [fst snd].
    apply (IH [] z o'); auto. intros y []. intros [].
  Qed.
  Lemma dumps : (forall o d, snd (write o d) = false) -> forall ops z o, z <> DISABLED -> no_level ops ->
    outs (history ops (Lg [] [] z o)) = fold_left (fun o it => fst (fst (write o (vals (history it (Lg [] [] z o)))))) (iterations [] ops) o.
  Proof. intros Hw ops z o Hz L. apply (dumps_acc Hw ops [] z o); auto. intros y []. intros []. Qed.
  Lemma disabled : forall a b l, level l = DISABLED -> no_level a -> history (a ++ [Dump] ++ b) l = history (a ++ b) l.
  Proof.
    intros a b l Hl La. rewrite !history_app. cbn [LG_Model.history LG_Model.do]. f_equal. unfold dumpkvs.
    assert (E : level (history a l) = DISABLED).
    { revert l Hl. induction a as [|o a IH]; intros l Hl; auto. cbn. apply IH. intros z Hz; apply (La z); now right. rewrite do_level; auto. intros z [Hz|[]]. apply (La z). now left. }
    rewrite E. reflexivity.
  Qed.
End One.

(** A text that is no number makes every dump raise after the CSV file has been written. *)
Lemma tb_twice : forall shown general order number c e kvs cs z k s,
  z <> DISABLED -> In (k, Txt s) kvs -> number s = None ->
  history (write_all shown general order number) [Dump; Dump] (Lg kvs cs z [CsvOut c; Tb e]) =
  Lg kvs cs z [CsvOut (csv_write shown order (csv_write shown order c kvs) kvs); Tb e].
Proof.
  intros shown general order number c e kvs cs z k s Hz Hi Hn.
  assert (R : tb_values number kvs = None).
  { induction kvs as [|[j v] kvs IH]. destruct Hi. cbn. destruct Hi as [Hi|Hi].
    - injection Hi as -> ->. cbn. now rewrite Hn.
    - rewrite (IH Hi). now destruct (tb_value number v) as [[|]|]. }
  assert (D : forall c, fst (do (write_all shown general order number) Dump (Lg kvs cs z [CsvOut c; Tb e])) = Lg kvs cs z [CsvOut (csv_write shown order c kvs); Tb e]).
  { intro c0. cbn [do]. unfold dumpkvs. cbn [level outs vals cnts]. replace (z =? DISABLED)%Z with false by (symmetry; now apply Z.eqb_neq).
    cbn [write_all write_one]. rewrite R. reflexivity. }
  cbn [history]. now rewrite !D.
Qed.

(** ** Scopes *)
Fixpoint all (l : list cmd) (w : world) : world := match l with [] => w | c :: r => all r (exec c w) end.
Lemma exec_scope : forall body w, exec (Scope body) w = let w' := all body (configure w) in World (current w) (fresh w') (close (current w') (opened w')).
Proof. reflexivity. Qed.
Lemma scope_current : forall body w, current (exec (Scope body) w) = current w.
Proof. reflexivity. Qed.
Lemma close_fresh : forall n l, (forall m, In m l -> m < n) -> close n (n :: l) = l.
Proof.
  intros n l H. cbn. rewrite Nat.eqb_refl. cbn. induction l as [|m l IH]; auto. cbn. destruct (Nat.eqb_spec m n) as [->|N].
  - specialize (H n (or_introl eq_refl)). lia.
  - cbn. f_equal. apply IH. intros x Hx. apply H. now right.
Qed.
Lemma scope_files : forall c w, scopes_only c = true -> made w -> current (exec c w) = current w /\ opened (exec c w) = opened w /\ fresh w <= fresh (exec c w).
Proof.
  fix IH 1. intros [| |body] w Hc [M1 M2]; try discriminate Hc. rewrite exec_scope. cbn zeta.
  assert (G : forall l w, forallb scopes_only l = true -> made w -> current (all l w) = current w /\ opened (all l w) = opened w /\ fresh w <= fresh (all l w)).
  { induction l as [|c l IHl]; intros w1 Hl Hm; cbn [all]; auto. cbn in Hl. apply andb_prop in Hl. destruct Hl as [Hc' Hl].
    destruct (IH c w1 Hc' Hm) as [A [B C]]. destruct (IHl (exec c w1)) as [A' [B' C']]; auto.
    - destruct Hm as [K1 K2]. split. lia. intros n Hn. rewrite B in Hn. specialize (K2 n Hn). lia.
    - rewrite A', B'. split; auto. split; auto. lia. }
  destruct (G body (configure w)) as [A [B C]].
  - exact Hc.
  - split; cbn. lia. intros n [<-|Hn]. lia. specialize (M2 n Hn). lia.
  - cbn [current opened fresh]. rewrite A, B. unfold configure in *. cbn [current opened fresh] in *. split; auto. split. now apply close_fresh. lia.
Qed.
