(** More about the formats of the logger, and about reset. *)
From Coq Require Import Ascii String List Arith ZArith QArith Bool Permutation Lia.
From Verif Require Import LG_Model LG_Spec LG_Proofs LG_Files.
Import ListNotations.
Open Scope nat_scope.
Lemma truncate_cut s : (length s <= 23 -> truncate s = s) /\ (23 < length s -> truncate s = firstn 20 s ++ t "...") /\ length (truncate s) <= 23.
Proof.
  unfold truncate. destruct (Nat.ltb_spec 23 (length s)) as [H|H]; (split; [intros; (reflexivity || lia)|]); (split; [intros; (reflexivity || lia)|]); [|exact H].
  rewrite app_length, firstn_length. change (length (t "...")) with 3. lia.
Qed.
Lemma reset_closes w : current (exec Reset w) = 0 /\ fresh (exec Reset w) = fresh w
  /\ forall n, In n (opened (exec Reset w)) <-> In n (opened w) /\ (current w = 0 \/ n <> current w).
Proof.
  cbn. unfold reset. destruct (Nat.eqb_spec (current w) 0) as [E|E]; [repeat split; try tauto; exact E|]. cbn. split; [reflexivity|]. split; [reflexivity|].
  intros n. unfold close. rewrite filter_In. destruct (Nat.eqb_spec n (current w)); cbn; intuition congruence.
Qed.
Lemma text_eqb_spec a b : reflect (a = b) (text_eqb a b).
Proof. unfold text_eqb. destruct (list_eq_dec ascii_dec a b); now constructor. Qed.
Lemma keys_put {B} k (v : B) d : In k (map fst d) -> map fst (put k v d) = map fst d.
Proof.
  induction d as [|[j w] d IH]; intros H; [destruct H|]. cbn. destruct (text_eqb_spec k j) as [->|Hn]; [reflexivity|]. cbn. f_equal. apply IH.
  destruct H as [H|H]; [cbn in H; congruence|exact H].
Qed.
Lemma get_in {B} k (v : B) d : NoDup (map fst d) -> In (k, v) d -> get k d = Some v.
Proof.
  induction d as [|[j w] d IH]; intros Hn H; [destruct H|]. cbn. inversion Hn as [|? ? Hni Hn']. subst. destruct (text_eqb_spec k j) as [->|Hk].
  - destruct H as [H|H]; [congruence|]. exfalso. apply Hni. now apply (in_map fst) in H.
  - destruct H as [H|H]; [congruence|]. now apply IH.
Qed.
Lemma get_some {B} k (v : B) d : get k d = Some v -> In (k, v) d.
Proof. induction d as [|[j w] d IH]; cbn; [discriminate|]. destruct (text_eqb_spec k j) as [->|Hk]; intros H; [left; congruence|right; auto]. Qed.
Lemma json_loop_spec l : forall kvs, NoDup (map fst l) -> (forall k v, In (k, v) l -> json_change v <> None /\ In k (map fst kvs)) ->
  exists d, json_loop l kvs = (d, false) /\ map fst d = map fst kvs /\ (forall k, ~ In k (map fst l) -> get k d = get k kvs)
    /\ forall k v, In (k, v) l -> get k d = json_change v.
Proof.
  induction l as [|[j w] l IH]; intros kvs Hn H; cbn.
  - exists kvs. repeat split; auto. intros k v [].
  - inversion Hn as [|? ? Hni Hn']. subst. destruct (H j w (or_introl eq_refl)) as [Hc Hj]. destruct (json_change w) as [x|] eqn:Ex; [|contradiction].
    destruct (IH (put j x kvs) Hn') as (d & E & Hk & Ho & Hi).
    { intros k v Hkv. destruct (H k v (or_intror Hkv)) as [H1 H2]. split; [exact H1|]. now rewrite keys_put. }
    exists d. split; [exact E|]. split; [now rewrite Hk, keys_put|]. split.
    + intros k Hk'. rewrite Ho by tauto. rewrite get_put. destruct (text_eqb_spec k j) as [->|]; [exfalso; apply Hk'; now left|reflexivity].
    + intros k v [E'|Hkv]; [|now apply Hi]. injection E' as -> ->. rewrite Ho by exact Hni. rewrite get_put. destruct (text_eqb_spec k k); [now rewrite Ex|congruence].
Qed.
Lemma change_value v : json_plain v -> exists w, json_change v = Some w /\ json_value v w.
Proof.
  destruct v as [x|s| |sh d|sh d]; intros H; try (eexists; split; [reflexivity|constructor]).
  destruct sh as [|[|[|n]] sh]; cbn in *.
  - destruct d as [|x [|y d]]; try (eexists; split; [reflexivity|]; constructor; intros (z & Ez & _); discriminate).
    eexists; split; [reflexivity|]. constructor. now left.
  - eexists; split; [reflexivity|]. constructor. intros (x & -> & [?|[? ?]]); discriminate.
  - destruct H as [x ->]. eexists; split; [reflexivity|]. constructor. right. eauto.
  - eexists; split; [reflexivity|]. constructor. intros (x & -> & [?|[? ?]]); discriminate.
Qed.
Lemma json_row shown general order number dicts kvs : dictionary kvs -> (forall k v, In (k, v) kvs -> json_plain v) ->
  exists d, write_one shown general order number (Json dicts) kvs = (Json (dicts ++ [d]), d, false) /\ map fst d = map fst kvs
    /\ forall k v, get k kvs = Some v -> exists w, get k d = Some w /\ json_value v w.
Proof.
  intros Hd Hp. pose proof (sorted_perm _ kvs) as HP.
  destruct (json_loop_spec (sorted kvs) kvs) as (d & E & Hk & _ & Hi).
  - apply (Permutation_NoDup (l := map fst kvs)); [|exact Hd]. apply Permutation_map. now apply Permutation_sym.
  - intros k v Hkv. apply (Permutation_in _ HP) in Hkv. split; [|now apply (in_map fst) in Hkv].
    destruct (change_value v (Hp k v Hkv)) as (w & Ew & _). now rewrite Ew.
  - exists d. cbn. rewrite E. split; [reflexivity|]. split; [exact Hk|]. intros k v Hg. apply get_some in Hg.
    destruct (change_value v (Hp k v Hg)) as (w & Ew & Hv). exists w. split; [|exact Hv]. rewrite <- Ew. apply Hi. eapply Permutation_in; [apply Permutation_sym, HP|exact Hg].
Qed.
Section Steps.
  Variables (shown : val -> text) (general : Q -> text) (order : list text -> list text) (number : text -> option Q).
  Lemma tb_steps_from dumps : forall events rows, map (tb_values number) dumps = map Some rows ->
    dumped shown general order number (Tb events) dumps = Tb (events ++ combine (seq (1 + length events) (length dumps)) rows).
  Proof.
    induction dumps as [|d dumps IH]; intros events [|r rows] H; try discriminate.
    - cbn. now rewrite app_nil_r.
    - injection H as H1 H2. cbn [dumped fold_left]. unfold dumped in IH. cbn [write_one]. rewrite H1. cbn [fst]. rewrite (IH _ rows H2).
      f_equal. rewrite <- app_assoc. cbn [app length seq combine]. rewrite app_length. cbn [length]. now rewrite Nat.add_1_r.
  Qed.
  Lemma tb_steps dumps rows : map (tb_values number) dumps = map Some rows ->
    dumped shown general order number (Tb []) dumps = Tb (combine (seq 1 (length dumps)) rows).
  Proof. apply (tb_steps_from dumps []). Qed.
End Steps.
