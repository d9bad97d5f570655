(** The log directory of a run: proofs. *)
From Coq Require Import Ascii String List Arith Bool Lia.
From Verif Require Import LD_Model LD_Spec.
Import ListNotations.
Open Scope nat_scope.

Lemma path_eqb_spec : forall p q, reflect (p = q) (path_eqb p q).
Proof. intros p q. unfold path_eqb. destruct (list_eq_dec string_dec p q); constructor; auto. Qed.
Lemma strip_some : forall p q s, strip p q = Some s <-> q = p ++ s.
Proof.
  induction p as [|a p IH]; intros q s; cbn.
  - split; congruence.
  - destruct q as [|b q]; [split; discriminate|]. destruct (string_dec a b) as [<-|E].
    + rewrite IH. split; congruence.
    + split; [discriminate|congruence].
Qed.
Lemma strip_app : forall p s, strip p (p ++ s) = Some s.
Proof. intros p s. apply strip_some. reflexivity. Qed.
Lemma strip_none : forall p q, strip p q = None <-> ~ inside p q.
Proof.
  intros p q. destruct (strip p q) as [s|] eqn:E.
  - apply strip_some in E. split; [discriminate|]. intros H. exfalso. apply H. exists s. exact E.
  - split; [|reflexivity]. intros _ (s & ->). rewrite strip_app in E. discriminate.
Qed.

Lemma lookup_entry : forall fs p, p <> [] -> p <> ["/"%string] -> lookup fs p = entry fs p.
Proof.
  intros fs p H1 H2. destruct p as [|a p]; [contradiction|]. unfold lookup.
  destruct (path_eqb_spec (a :: p) ["/"%string]); [contradiction|reflexivity].
Qed.
Lemma lookup_same : forall fs fs' p, entry fs' p = entry fs p -> lookup fs' p = lookup fs p.
Proof. intros fs fs' p H. unfold lookup. destruct p; [reflexivity|]. rewrite H. reflexivity. Qed.
Lemma entry_remove : forall p fs q, entry (remove_tree p fs) q = match strip p q with Some _ => None | None => entry fs q end.
Proof.
  intros p. induction fs as [|[r n] fs IH]; intros q; cbn.
  - destruct (strip p q); reflexivity.
  - destruct (strip p r) as [s|] eqn:E; cbn; [rewrite IH|].
    + destruct (strip p q) as [s2|] eqn:E2; [reflexivity|].
      destruct (path_eqb_spec r q) as [->|]; [congruence|reflexivity].
    + destruct (path_eqb_spec r q) as [->|]; [rewrite E; reflexivity|apply IH].
Qed.
Lemma entry_move : forall l o fs, (forall s, entry fs (o ++ s) = None) ->
  (forall s, strip l (o ++ s) = None) -> forall q, entry (move_tree l o fs) q =
  match strip o q with
  | Some s => entry fs (l ++ s)
  | None => match strip l q with Some _ => None | None => entry fs q end
  end.
Proof.
  intros l o fs Ho Hlo. induction fs as [|[r n] fs IH]; intros q; cbn.
  - destruct (strip o q); [reflexivity|]. destruct (strip l q); reflexivity.
  - assert (Ho' : forall s, entry fs (o ++ s) = None).
    { intros s. specialize (Ho s). cbn in Ho. destruct (path_eqb r (o ++ s)); [discriminate|exact Ho]. }
    specialize (IH Ho'). destruct (strip l r) as [s|] eqn:E.
    + apply strip_some in E. subst r.
      destruct (path_eqb_spec (o ++ s) q) as [<-|N1].
      * rewrite strip_app. destruct (path_eqb_spec (l ++ s) (l ++ s)); [reflexivity|contradiction].
      * rewrite IH. destruct (strip o q) as [s2|] eqn:E2.
        -- apply strip_some in E2. subst q. destruct (path_eqb_spec (l ++ s) (l ++ s2)) as [H|]; [|reflexivity].
           apply app_inv_head in H. congruence.
        -- destruct (strip l q) as [s3|] eqn:E3; [reflexivity|].
           destruct (path_eqb_spec (l ++ s) q) as [<-|]; [rewrite strip_app in E3; discriminate|reflexivity].
    + destruct (path_eqb_spec r q) as [->|N1].
      * destruct (strip o q) as [s2|] eqn:E2.
        -- apply strip_some in E2. subst q. specialize (Ho s2). cbn in Ho.
           destruct (path_eqb_spec (o ++ s2) (o ++ s2)); [discriminate|contradiction].
        -- rewrite E. reflexivity.
      * rewrite IH. destruct (strip o q) as [s2|] eqn:E2.
        -- apply strip_some in E2. subst q.
           destruct (path_eqb_spec r (l ++ s2)) as [->|]; [rewrite strip_app in E; discriminate|reflexivity].
        -- reflexivity.
Qed.

Lemma entry_app : forall fs p q n, entry (fs ++ [(p, n)]) q =
  match entry fs q with Some m => Some m | None => if path_eqb p q then Some n else None end.
Proof.
  induction fs as [|[r m] fs IH]; intros p q n; cbn; [reflexivity|]. destruct (path_eqb r q); [reflexivity|apply IH].
Qed.
Lemma lookup_app : forall fs p q n, lookup (fs ++ [(p, n)]) q =
  match lookup fs q with Some m => Some m | None => if path_eqb p q then Some n else None end.
Proof.
  intros fs p q n. unfold lookup. destruct q as [|a q]; [reflexivity|]. destruct (path_eqb (a :: q) ["/"%string]); [reflexivity|].
  apply entry_app.
Qed.

(** After makedirs the name and its parts are directories, the rest is as it was. *)
Lemma make_spec : forall rest pre fs fs', (forall p s, pre = p ++ s -> lookup fs p = Some DirN) ->
  make_from pre rest fs = Some fs' ->
  forall q, lookup fs' q = match strip q (pre ++ rest) with Some _ => Some DirN | None => lookup fs q end.
Proof.
  induction rest as [|a rest IH]; intros pre fs fs' Hp H q; cbn in H.
  - injection H as <-. rewrite app_nil_r. destruct (strip q pre) as [s|] eqn:E; [|reflexivity].
    apply strip_some in E. eapply Hp; eauto.
  - assert (Hstep : forall fs2, lookup fs2 (pre ++ [a]) = Some DirN -> (forall p, lookup fs p = Some DirN -> lookup fs2 p = Some DirN) ->
      forall p s, pre ++ [a] = p ++ s -> lookup fs2 p = Some DirN).
    { intros fs2 Ha Hm p s E. destruct s as [|b s] using rev_ind.
      - rewrite app_nil_r in E. subst p. exact Ha.
      - clear IHs. rewrite app_assoc in E. apply app_inj_tail in E. destruct E as (E & _). apply Hm. eapply Hp; eauto. }
    destruct (lookup fs (pre ++ [a])) as [[|tx]|] eqn:El; [|discriminate|].
    + rewrite (IH _ _ _ (Hstep fs El (fun p h => h)) H q). rewrite <- app_assoc. reflexivity.
    + assert (E2 : lookup (fs ++ [(pre ++ [a], DirN)]) (pre ++ [a]) = Some DirN).
      { rewrite lookup_app, El. destruct (path_eqb_spec (pre ++ [a]) (pre ++ [a])); [reflexivity|contradiction]. }
      assert (E3 : forall p, lookup fs p = Some DirN -> lookup (fs ++ [(pre ++ [a], DirN)]) p = Some DirN).
      { intros p h. rewrite lookup_app, h. reflexivity. }
      rewrite (IH _ _ _ (Hstep _ E2 E3) H q). rewrite <- app_assoc. cbn [app].
      destruct (strip q (pre ++ a :: rest)) as [s|] eqn:E; [reflexivity|].
      rewrite lookup_app. destruct (lookup fs q); [reflexivity|].
      destruct (path_eqb_spec (pre ++ [a]) q) as [<-|]; [|reflexivity].
      exfalso. apply strip_none in E. apply E. exists rest. rewrite <- app_assoc. reflexivity.
Qed.
Lemma makedirs_spec : forall l fs fs', makedirs l fs = Some fs' ->
  forall q, lookup fs' q = match strip q l with Some _ => Some DirN | None => lookup fs q end.
Proof.
  intros l fs fs' H q. unfold makedirs in H. rewrite (make_spec l [] fs fs'); auto.
  intros p s E. symmetry in E. apply app_eq_nil in E. destruct E as (-> & _). reflexivity.
Qed.
Lemma make_total : forall rest pre fs, (forall p s, pre ++ rest = p ++ s -> forall t, lookup fs p <> Some (FileN t)) ->
  exists fs', make_from pre rest fs = Some fs'.
Proof.
  induction rest as [|a rest IH]; intros pre fs H; cbn; [eauto|].
  destruct (lookup fs (pre ++ [a])) as [[|t]|] eqn:E.
  - apply IH. intros p s Ep. apply (H p s). rewrite <- Ep, <- app_assoc. reflexivity.
  - exfalso. eapply (H (pre ++ [a]) rest); [rewrite <- app_assoc; reflexivity|exact E].
  - apply IH. intros p s Ep t. rewrite lookup_app. destruct (lookup fs p) as [n|] eqn:En.
    + rewrite <- En. apply (H p s). rewrite <- Ep, <- app_assoc. reflexivity.
    + destruct (path_eqb (pre ++ [a]) p); discriminate.
Qed.

(** ** Names. *)
Lemma str_app_nil : forall s, (s ++ "")%string = s.
Proof. induction s; cbn; congruence. Qed.
Lemma str_app_assoc : forall a b c, ((a ++ b) ++ c)%string = (a ++ b ++ c)%string.
Proof. induction a; cbn; intros; congruence. Qed.
Lemma str_length_app : forall a b, String.length (a ++ b) = String.length a + String.length b.
Proof. induction a; cbn; intros; auto. Qed.
Lemma str_app_inj : forall a b x y, (a ++ x)%string = (b ++ y)%string -> String.length x = String.length y -> a = b /\ x = y.
Proof.
  induction a as [|c a IH]; intros [|d b] x y H L; cbn in H.
  - auto.
  - exfalso. subst x. cbn in L. rewrite str_length_app in L. lia.
  - exfalso. subst y. cbn in L. rewrite str_length_app in L. lia.
  - injection H as <- H. destruct (IH _ _ _ H L) as (-> & ->). auto.
Qed.

Fixpoint seg (s : string) : string :=
  match s with EmptyString => EmptyString | String c t => if ascii_dec c "/" then EmptyString else String c (seg t) end.
Lemma split_head : forall s acc, acc <> ""%string -> exists t, split_slash acc s = (acc ++ seg s)%string :: t.
Proof.
  induction s as [|c s IH]; intros acc H; cbn.
  - destruct (string_dec acc ""); [contradiction|]. rewrite str_app_nil. eauto.
  - destruct (ascii_dec c "/") as [->|E].
    + destruct (string_dec acc ""); [contradiction|]. rewrite str_app_nil. eauto.
    + destruct (IH (acc ++ String c "")%string) as (t & Et); [destruct acc; discriminate|]. rewrite Et, str_app_assoc. cbn. eauto.
Qed.
Lemma heads_differ : forall dir, dir <> ""%string -> exists a la b lb,
  path_of dir = a :: la /\ path_of (old_dir dir) = b :: lb /\ a <> b /\ b <> "/"%string.
Proof.
  intros dir H. destruct dir as [|c t]; [contradiction|].
  assert (Eo : path_of (old_dir (String c t)) = split_slash "old_" (String c t)) by reflexivity.
  rewrite Eo. clear Eo. destruct (ascii_dec c "/") as [->|E].
  - destruct (split_head (String "/" t) "old_") as (lb & Eb); [discriminate|].
    exists "/"%string, (split_slash "" (String "/" t)), "old_"%string, lb.
    split; [reflexivity|]. split; [exact Eb|]. split; discriminate.
  - destruct (split_head t (String c "")) as (la & Ea); [discriminate|].
    destruct (split_head (String c t) "old_") as (lb & Eb); [discriminate|].
    exists (String c (seg t)), la, ("old_" ++ seg (String c t))%string, lb.
    split.
    { unfold path_of. assert (Es : split_slash "" (String c t) = split_slash (String c "") t).
      { cbn. destruct (ascii_dec c "/"); [contradiction|reflexivity]. }
      change (String c (seg t) :: la) with ((String c "" ++ seg t)%string :: la). rewrite <- Ea, <- Es. destruct c as [[] [] [] [] [] [] [] []]; try reflexivity. contradiction E; reflexivity. }
    split; [exact Eb|]. split.
    + intros Hc. apply (f_equal String.length) in Hc. rewrite str_length_app in Hc. cbn in Hc.
      destruct (ascii_dec c "/"); [contradiction|]. cbn in Hc. lia.
    + cbn. discriminate.
Qed.
(** The last part of the name of a log directory ends in _log. *)
Lemma split_last : forall x acc, exists pre w, split_slash acc (x ++ "_log/") = pre ++ [(w ++ "_log")%string].
Proof.
  induction x as [|c x IH]; intros acc.
  - cbn. match goal with |- context [string_dec ?u ""] => destruct (string_dec u "") as [H|H] end.
    + exfalso. destruct acc; discriminate.
    + exists [], acc. cbn. f_equal. rewrite !str_app_assoc. reflexivity.
  - cbn. destruct (ascii_dec c "/").
    + destruct (string_dec acc "").
      * apply IH.
      * destruct (IH ""%string) as (pre & w & E). exists (acc :: pre), w. rewrite E. reflexivity.
    + apply IH.
Qed.
Lemma log_last : forall input, exists pre w, log_of input = pre ++ [(w ++ "_log")%string].
Proof.
  intros input. unfold log_of, log_dir. destruct (split_last (before_dot input) "") as (pre & w & E).
  unfold path_of. destruct (before_dot input ++ "_log/")%string as [|c t] eqn:Ed; [destruct (before_dot input); discriminate|].
  destruct (ascii_dec c "/") as [->|Ec].
  - exists ("/"%string :: pre), w. rewrite E. reflexivity.
  - exists pre, w. rewrite <- E. destruct c as [[] [] [] [] [] [] [] []]; try reflexivity. contradiction Ec; reflexivity.
Qed.

Section Names.
Context (input : string).
Let l := log_of input.
Let o := old_of input.

Lemma heads : exists a la b lb, l = a :: la /\ o = b :: lb /\ a <> b /\ b <> "/"%string.
Proof.
  apply heads_differ. unfold log_dir. destruct (before_dot input); discriminate.
Qed.
Lemma apart_lo : forall s, strip l (o ++ s) = None.
Proof.
  intros s. destruct heads as (a & la & b & lb & -> & -> & H & _). cbn. destruct (string_dec a b); [contradiction|reflexivity].
Qed.
Lemma apart_ol : forall s, strip o (l ++ s) = None.
Proof.
  intros s. destruct heads as (a & la & b & lb & -> & -> & H & _). cbn. destruct (string_dec b a); [congruence|reflexivity].
Qed.
Lemma not_inside_lo : forall q, inside l q -> inside o q -> False.
Proof.
  intros q (s & ->) (s' & H). destruct heads as (a & la & b & lb & El & Eo & Hd & _). rewrite El, Eo in H.
  injection H as H _. contradiction.
Qed.
Lemma l_plain : forall s, l ++ s <> [] /\ l ++ s <> ["/"%string].
Proof.
  intros s. destruct (log_last input) as (pre & w & E). fold l in E. rewrite E. split.
  - destruct pre; discriminate.
  - intros H. destruct pre as [|a [|b pre]]; cbn in H; try discriminate.
    injection H as H _. destruct w as [|c [|d w]]; discriminate.
Qed.
Lemma o_plain : forall s, o ++ s <> [] /\ o ++ s <> ["/"%string].
Proof.
  intros s. destruct heads as (a & la & b & lb & _ & -> & _ & H). split; [discriminate|]. cbn. intros E. injection E as E _. contradiction.
Qed.
End Names.

(** Nothing is inside what is not a directory. *)
Lemma tree_none : forall fs p, tree fs -> lookup fs p <> Some DirN -> forall s, s <> [] -> lookup fs (p ++ s) = None.
Proof.
  intros fs p W H s. induction s as [|a s IH] using rev_ind; [contradiction|]. intros _. rewrite app_assoc.
  destruct (lookup fs ((p ++ s) ++ [a])) as [n|] eqn:E; [|reflexivity]. apply W in E.
  destruct s as [|b s]; [rewrite app_nil_r in E; contradiction|]. rewrite IH in E by discriminate. discriminate.
Qed.
(** What is on the way to a name is a directory. *)
Lemma tree_prefix : forall fs p, tree fs -> forall s n, s <> [] -> lookup fs (p ++ s) = Some n -> lookup fs p = Some DirN.
Proof.
  intros fs p W s. induction s as [|a s IH] using rev_ind; intros n H E; [contradiction|].
  rewrite app_assoc in E. apply W in E. destruct s as [|b s]; [rewrite app_nil_r in E; exact E|].
  apply (IH DirN); [discriminate|exact E].
Qed.

(** ** The directories. *)
Lemma fresh_done : forall input fs fs', tree fs -> fresh_dir (log_dir input) fs = Done fs' ->
  (lookup fs (log_of input) = Some DirN /\ lookup fs (parent (old_of input)) = Some DirN /\
   forall q, lookup fs' q =
     match strip (old_of input) q with
     | Some s => lookup fs (log_of input ++ s)
     | None => match strip (log_of input) q with
               | Some [] => Some DirN
               | Some _ => None
               | None => lookup fs q
               end
     end) \/
  (lookup fs (log_of input) = None /\
   forall q, lookup fs' q =
     match strip q (log_of input) with
     | Some _ => Some DirN
     | None => lookup fs q
     end).
Proof.
  intros input fs fs' W H. unfold fresh_dir in H. fold (log_of input) (old_of input) in H.
  set (l := log_of input) in *. set (o := old_of input) in *.
  assert (Lp := fun s => l_plain input s). assert (Op := fun s => o_plain input s). fold l in Lp. fold o in Op.
  assert (Alo := fun s => apart_lo input s). assert (Aol := fun s => apart_ol input s). fold l o in Alo, Aol.
  assert (Main : forall fs1 fs2, (forall q, entry fs1 q = match strip o q with Some _ => None | None => entry fs q end) ->
    lookup fs l = Some DirN -> rename l o fs1 = Some fs2 -> makedirs l fs2 = Some fs' ->
    forall q, lookup fs' q = match strip o q with
     | Some s => lookup fs (l ++ s)
     | None => match strip l q with Some [] => Some DirN | Some _ => None | None => lookup fs q end end).
  { intros fs1 fs2 H1 Hl Hr Hm q. unfold rename in Hr. destruct (lookup fs1 (parent o)) as [[|]|]; try discriminate.
    destruct (lookup fs1 o) eqn:Eo; [discriminate|]. injection Hr as <-.
    assert (Ho : forall s, entry fs1 (o ++ s) = None).
    { intros s. rewrite H1, strip_app. reflexivity. }
    pose proof (entry_move l o fs1 Ho Alo) as Em.
    rewrite (makedirs_spec _ _ _ Hm).
    destruct (strip o q) as [s|] eqn:Eoq.
    - apply strip_some in Eoq. subst q. destruct (strip (o ++ s) l) as [s2|] eqn:E2.
      + exfalso. apply strip_some in E2. rewrite <- app_assoc in E2. rewrite <- (app_nil_r l) in E2.
        specialize (Aol []). rewrite E2, strip_app in Aol. discriminate.
      + rewrite lookup_entry by apply Op. rewrite Em, strip_app, H1, Aol. symmetry. apply lookup_entry; apply Lp.
    - destruct (strip l q) as [s|] eqn:Elq.
      + apply strip_some in Elq. subst q. destruct s as [|b s].
        * rewrite app_nil_r. pose proof (strip_app l []) as E. rewrite app_nil_r in E. rewrite E. reflexivity.
        * destruct (strip (l ++ b :: s) l) as [s2|] eqn:E2.
          -- exfalso. apply strip_some in E2. apply (f_equal (@length string)) in E2. rewrite !app_length in E2. cbn in E2. lia.
          -- rewrite lookup_entry by apply Lp. rewrite Em, Eoq, strip_app. reflexivity.
      + destruct (strip q l) as [s|] eqn:Eql.
        * apply strip_some in Eql. destruct s as [|b s].
          -- rewrite app_nil_r in Eql. pose proof (strip_app l []) as E. rewrite app_nil_r in E. rewrite <- Eql in Elq. congruence.
          -- symmetry. apply (tree_prefix fs q W (b :: s) DirN); [discriminate|]. rewrite <- Eql. exact Hl.
        * apply lookup_same. rewrite Em, Eoq, Elq, H1, Eoq. reflexivity. }
  destruct (lookup fs l) as [[|t]|] eqn:El; [|discriminate|].
  - left. split; [reflexivity|].
    destruct (lookup fs o) as [[|t]|] eqn:Eo.
    + destruct (rename l o (remove_tree o fs)) as [fs2|] eqn:Er; [|discriminate].
      destruct (makedirs l fs2) as [fs3|] eqn:Em; [|discriminate]. injection H as ->. split.
      * assert (Ho : o <> []) by (specialize (Op []); rewrite app_nil_r in Op; apply Op).
        unfold parent. rewrite (app_removelast_last ""%string Ho) in Eo. apply W in Eo. exact Eo.
      * apply (Main (remove_tree o fs) fs2); auto. apply entry_remove.
    + destruct (rename l o fs) as [fs2|] eqn:Er; [|discriminate].
      exfalso. unfold rename in Er. rewrite Eo in Er. destruct (lookup fs (parent o)) as [[|]|]; discriminate.
    + destruct (rename l o fs) as [fs2|] eqn:Er; [|discriminate].
      destruct (makedirs l fs2) as [fs3|] eqn:Em; [|discriminate]. injection H as ->. split.
      * unfold rename in Er. destruct (lookup fs (parent o)) as [[|]|]; [reflexivity|discriminate|discriminate].
      * apply (Main fs fs2); auto. intros q. destruct (strip o q) as [s|] eqn:E; [|reflexivity].
        apply strip_some in E. subst q. rewrite <- lookup_entry by apply Op.
        destruct s as [|b s]; [rewrite app_nil_r; exact Eo|].
        apply (tree_none fs o W); [rewrite Eo; discriminate|discriminate].
  - right. split; [reflexivity|]. destruct (makedirs l fs) as [fs3|] eqn:Em; [|discriminate]. injection H as ->.
    apply (makedirs_spec _ _ _ Em).
Qed.

(** ** The files. *)
Lemma inp_out : forall a b, (a ++ "_inp.csv")%string <> (b ++ "_out.csv")%string.
Proof. intros a b H. apply str_app_inj in H; [|reflexivity]. destruct H as (_ & H). discriminate. Qed.
Lemma put_lookup : forall l p t fs q, l <> [] -> lookup (put (l ++ [p]) t fs) q =
  if path_eqb (l ++ [p]) q then Some (FileN t) else lookup fs q.
Proof.
  intros l p t fs q H. unfold put, lookup. destruct q as [|a q].
  - destruct (path_eqb_spec (l ++ [p]) []) as [E|]; [destruct l; discriminate|reflexivity].
  - destruct (path_eqb_spec (a :: q) ["/"%string]) as [E|].
    + rewrite E. destruct (path_eqb_spec (l ++ [p]) ["/"%string]) as [E2|]; [|reflexivity].
      destruct l as [|b [|c l]]; [contradiction|discriminate|discriminate].
    + reflexivity.
Qed.
Lemma put_files_other : forall l hin hout ms fs q, l <> [] ->
  (forall m, In m ms -> q <> l ++ [(m ++ "_inp.csv")%string] /\ q <> l ++ [(m ++ "_out.csv")%string]) ->
  lookup (put_files l hin hout ms fs) q = lookup fs q.
Proof.
  intros l hin hout. induction ms as [|m ms IH]; intros fs q Hl H; cbn; [reflexivity|].
  rewrite IH; [|exact Hl|intros m' Hm; apply H; right; exact Hm]. destruct (H m (or_introl eq_refl)) as (H1 & H2).
  rewrite put_lookup by exact Hl. destruct (path_eqb_spec (l ++ [(m ++ "_out.csv")%string]) q) as [E|]; [congruence|].
  rewrite put_lookup by exact Hl. destruct (path_eqb_spec (l ++ [(m ++ "_inp.csv")%string]) q) as [E|]; [congruence|reflexivity].
Qed.
Lemma put_files_keep : forall l hin hout ms fs q t, l <> [] ->
  (t = hin /\ (exists m, q = l ++ [(m ++ "_inp.csv")%string]) \/ t = hout /\ (exists m, q = l ++ [(m ++ "_out.csv")%string])) ->
  lookup fs q = Some (FileN t) -> lookup (put_files l hin hout ms fs) q = Some (FileN t).
Proof.
  intros l hin hout. induction ms as [|m ms IH]; intros fs q t Hl Ht H; cbn; [exact H|].
  apply IH; auto. rewrite !put_lookup by exact Hl.
  destruct (path_eqb_spec (l ++ [(m ++ "_out.csv")%string]) q) as [E|].
  - destruct Ht as [(-> & m' & E')|(-> & _)]; [|reflexivity]. rewrite E' in E. apply app_inj_tail in E. destruct E as (_ & E).
    symmetry in E. apply inp_out in E. contradiction.
  - destruct (path_eqb_spec (l ++ [(m ++ "_inp.csv")%string]) q) as [E|]; [|exact H].
    destruct Ht as [(-> & _)|(-> & m' & E')]; [reflexivity|]. rewrite E' in E. apply app_inj_tail in E. destruct E as (_ & E).
    apply inp_out in E. contradiction.
Qed.
Lemma put_files_in : forall l hin hout ms fs m, l <> [] -> In m ms ->
  lookup (put_files l hin hout ms fs) (l ++ [(m ++ "_inp.csv")%string]) = Some (FileN hin) /\
  lookup (put_files l hin hout ms fs) (l ++ [(m ++ "_out.csv")%string]) = Some (FileN hout).
Proof.
  intros l hin hout. induction ms as [|m0 ms IH]; intros fs m Hl H; [destruct H|]; cbn; destruct H as [->|H]; [|apply IH; assumption].
  split; (apply put_files_keep; [exact Hl|eauto|]); rewrite !put_lookup by exact Hl.
  - destruct (path_eqb_spec (l ++ [(m ++ "_out.csv")%string]) (l ++ [(m ++ "_inp.csv")%string])) as [E|].
    + apply app_inj_tail in E. destruct E as (_ & E). symmetry in E. apply inp_out in E. contradiction.
    + destruct (path_eqb_spec (l ++ [(m ++ "_inp.csv")%string]) (l ++ [(m ++ "_inp.csv")%string])); [reflexivity|contradiction].
  - destruct (path_eqb_spec (l ++ [(m ++ "_out.csv")%string]) (l ++ [(m ++ "_out.csv")%string])); [reflexivity|contradiction].
Qed.
