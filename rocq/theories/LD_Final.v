(** The log directory of a run: the final statements. *)
From Coq Require Import Ascii String List Arith Bool Lia.
From Verif Require Import LD_Model LD_Spec LD_Proofs.
Import ListNotations.
Open Scope nat_scope.

Section Final.
Context (shown : nat -> string).

Lemma init_inv : forall ms nx ny xs ys input fs fs', initfiles shown ms nx ny xs ys (log_dir input) fs = Done fs' ->
  exists fs1, fresh_dir (log_dir input) fs = Done fs1 /\
    fs' = put_files (log_of input) (header (columns shown nx "x" xs)) (header (columns shown ny "y" ys)) ms fs1.
Proof.
  intros ms nx ny xs ys input fs fs' H. unfold initfiles in H. destruct (checked ny "y" ys); [|discriminate].
  destruct (checked nx "x" xs); [|discriminate]. destruct (fresh_dir (log_dir input) fs) as [fs1|]; [|discriminate].
  injection H as <-. eauto.
Qed.
Lemma outside_files : forall input hin hout ms fs q, ~ inside (log_of input) q ->
  lookup (put_files (log_of input) hin hout ms fs) q = lookup fs q.
Proof.
  intros input hin hout ms fs q H. apply put_files_other.
  - pose proof (l_plain input []) as P. rewrite app_nil_r in P. apply P.
  - intros m _. split; intros ->; apply H; eexists; reflexivity.
Qed.
Lemma only_files : forall input hin hout ms fs,
  (forall s, lookup fs (log_of input ++ s) = match s with [] => Some DirN | _ => None end) ->
  only_headers (log_of input) ms hin hout (put_files (log_of input) hin hout ms fs).
Proof.
  intros input hin hout ms fs H.
  assert (Hl : log_of input <> []) by (pose proof (l_plain input []) as P; rewrite app_nil_r in P; apply P).
  split; [|split].
  - rewrite put_files_other; [pose proof (H []) as H0; rewrite app_nil_r in H0; exact H0|exact Hl|].
    intros m _. split; intros E; apply (f_equal (@length string)) in E; rewrite app_length in E; cbn in E; lia.
  - intros m Hm. apply put_files_in; assumption.
  - intros s Hs Hm. rewrite put_files_other; [rewrite H; destruct s; [contradiction|reflexivity]|exact Hl|].
    intros m Hi. destruct (Hm m Hi) as (H1 & H2). split; intros E; apply app_inv_head in E; contradiction.
Qed.

Lemma kept_ld : forall ms nx ny xs ys input fs fs', tree fs -> lookup fs (log_of input) = Some DirN ->
  initfiles shown ms nx ny xs ys (log_dir input) fs = Done fs' ->
  (forall s, lookup fs' (old_of input ++ s) = lookup fs (log_of input ++ s)) /\
  only_headers (log_of input) ms (header (columns shown nx "x" xs)) (header (columns shown ny "y" ys)) fs' /\
  (forall q, ~ inside (log_of input) q -> ~ inside (old_of input) q -> lookup fs' q = lookup fs q).
Proof.
  intros ms nx ny xs ys input fs fs' W Hl H. apply init_inv in H. destruct H as (fs1 & Hf & ->).
  apply fresh_done in Hf; [|exact W]. destruct Hf as [(_ & _ & Hq)|(E & _)]; [|rewrite Hl in E; discriminate].
  split; [|split].
  - intros s. rewrite outside_files.
    + rewrite Hq, strip_app. reflexivity.
    + intros Hi. apply (not_inside_lo input _ Hi). eexists; reflexivity.
  - apply only_files. intros s. rewrite Hq, apart_ol, strip_app. destruct s; reflexivity.
  - intros q H1 H2. rewrite outside_files by exact H1. rewrite Hq. apply strip_none in H1. apply strip_none in H2.
    rewrite H1, H2. reflexivity.
Qed.
Lemma new_ld : forall ms nx ny xs ys input fs fs', tree fs -> lookup fs (log_of input) = None ->
  initfiles shown ms nx ny xs ys (log_dir input) fs = Done fs' ->
  only_headers (log_of input) ms (header (columns shown nx "x" xs)) (header (columns shown ny "y" ys)) fs' /\
  (forall q, ~ inside (log_of input) q -> lookup fs' q = if strip q (log_of input) then Some DirN else lookup fs q) /\
  (forall s, lookup fs' (old_of input ++ s) = lookup fs (old_of input ++ s)).
Proof.
  intros ms nx ny xs ys input fs fs' W Hl H. apply init_inv in H. destruct H as (fs1 & Hf & ->).
  apply fresh_done in Hf; [|exact W]. destruct Hf as [(E & _)|(_ & Hq)]; [rewrite Hl in E; discriminate|].
  split; [|split].
  - apply only_files. intros s. rewrite Hq. destruct s as [|b s].
    + rewrite app_nil_r. pose proof (strip_app (log_of input) []) as E. rewrite app_nil_r in E. rewrite E. reflexivity.
    + destruct (strip (log_of input ++ b :: s) (log_of input)) as [s2|] eqn:E2.
      * exfalso. apply strip_some in E2. apply (f_equal (@length string)) in E2. rewrite !app_length in E2. cbn in E2. lia.
      * apply (tree_none fs _ W); [rewrite Hl; discriminate|discriminate].
  - intros q H1. rewrite outside_files by exact H1. rewrite Hq. reflexivity.
  - intros s. rewrite outside_files.
    + rewrite Hq. destruct (strip (old_of input ++ s) (log_of input)) as [s2|] eqn:E2; [|reflexivity].
      exfalso. apply strip_some in E2. rewrite <- app_assoc in E2. pose proof (apart_ol input []) as A. rewrite app_nil_r, E2, strip_app in A. discriminate.
    + intros Hi. apply (not_inside_lo input _ Hi). eexists; reflexivity.
Qed.

(** A file system stays a tree. *)
Lemma tree_ld : forall ms nx ny xs ys input fs fs', tree fs ->
  initfiles shown ms nx ny xs ys (log_dir input) fs = Done fs' -> tree fs'.
Proof.
  intros ms nx ny xs ys input fs fs' W H p a n E.
  assert (Hl : log_of input <> []) by (pose proof (l_plain input []) as P; rewrite app_nil_r in P; apply P).
  assert (Ho : old_of input <> []) by (pose proof (o_plain input []) as P; rewrite app_nil_r in P; apply P).
  pose proof H as H0. apply init_inv in H0. destruct H0 as (fs1 & Hf & Hfs).
  apply fresh_done in Hf; [|exact W].
  assert (InL : forall s, only_headers (log_of input) ms (header (columns shown nx "x" xs)) (header (columns shown ny "y" ys)) fs' ->
    s <> [] -> p ++ [a] = log_of input ++ s -> lookup fs' p = Some DirN).
  { intros s (O1 & O2 & O3) Hs Ep. destruct s as [|b s _] using rev_ind; [contradiction|].
    rewrite app_assoc in Ep. apply app_inj_tail in Ep. destruct Ep as (-> & ->).
    destruct s as [|d s]; [rewrite app_nil_r; exact O1|]. exfalso.
    rewrite <- app_assoc in E. rewrite O3 in E; [discriminate|discriminate|].
    intros m _. split; intros X; apply (f_equal (@length string)) in X; rewrite app_length in X; cbn in X; lia. }
  destruct Hf as [(Hd & Hp & Hq)|(Hn & Hq)].
  - destruct (kept_ld _ _ _ _ _ _ _ _ W Hd H) as (K1 & K2 & K3).
    destruct (strip (old_of input) (p ++ [a])) as [s|] eqn:Eo.
    + apply strip_some in Eo. rewrite Eo, K1 in E. destruct s as [|b s _] using rev_ind.
      * rewrite app_nil_r in Eo. assert (Epp : p = parent (old_of input)) by (unfold parent; rewrite <- Eo, removelast_last; reflexivity).
        destruct (strip (log_of input) p) as [s|] eqn:Es.
        -- exfalso. apply strip_some in Es. pose proof (apart_lo input []) as A. rewrite app_nil_r, <- Eo, Es, <- app_assoc, strip_app in A. discriminate A.
        -- rewrite K3; [rewrite Epp; exact Hp|apply strip_none; exact Es|].
           intros (s & Es2). rewrite Es2 in Eo. apply (f_equal (@length string)) in Eo. rewrite !app_length in Eo. cbn in Eo. lia.
      * rewrite app_assoc in Eo. apply app_inj_tail in Eo. destruct Eo as (-> & ->). rewrite K1.
        rewrite app_assoc in E. apply W in E. exact E.
    + destruct (strip (log_of input) (p ++ [a])) as [s|] eqn:El.
      * apply strip_some in El. destruct s as [|b s]; [|apply (InL (b :: s)); [exact K2|discriminate|exact El]].
        rewrite app_nil_r in El. rewrite K3.
        -- rewrite <- El in Hd. apply W in Hd. exact Hd.
        -- intros (s & Es). rewrite Es in El. apply (f_equal (@length string)) in El. rewrite !app_length in El. cbn in El. lia.
        -- intros (s & Es). pose proof (apart_ol input []) as A. rewrite app_nil_r, <- El, Es, <- app_assoc, strip_app in A. discriminate.
      * rewrite K3 in E by (apply strip_none; assumption). apply W in E. rewrite K3; [exact E| |].
        -- intros (s & ->). rewrite <- app_assoc, strip_app in El. discriminate.
        -- intros (s & ->). rewrite <- app_assoc, strip_app in Eo. discriminate.
  - destruct (new_ld _ _ _ _ _ _ _ _ W Hn H) as (K2 & K3 & _).
    destruct (strip (log_of input) (p ++ [a])) as [s|] eqn:El.
    + apply strip_some in El. destruct s as [|b s]; [|apply (InL (b :: s)); [exact K2|discriminate|exact El]].
      rewrite app_nil_r in El. rewrite K3.
      * rewrite <- El, strip_app. reflexivity.
      * intros (s & Es). rewrite Es in El. apply (f_equal (@length string)) in El. rewrite !app_length in El. cbn in El. lia.
    + rewrite K3 in E by (apply strip_none; assumption). rewrite K3.
      * destruct (strip p (log_of input)) as [s|] eqn:Ep; [reflexivity|].
        destruct (strip (p ++ [a]) (log_of input)) as [s|] eqn:Ep2.
        -- exfalso. apply strip_some in Ep2. rewrite <- app_assoc in Ep2. rewrite Ep2, strip_app in Ep. discriminate.
        -- apply W in E. exact E.
      * intros (s & ->). rewrite <- app_assoc, strip_app in El. discriminate.
Qed.

(** ** What raises and what does not. *)
Lemma checks_ld : forall ms nx ny xs ys dir fs,
  (exists a t, ys = a :: t /\ a <> "y"%string /\ length ys <> ny) \/ (exists a t, xs = a :: t /\ a <> "x"%string /\ length xs <> nx) ->
  initfiles shown ms nx ny xs ys dir fs = Raised fs.
Proof.
  intros ms nx ny xs ys dir fs H. unfold initfiles.
  destruct (checked ny "y" ys) eqn:Ey; [|reflexivity].
  destruct (checked nx "x" xs) eqn:Ex; [|reflexivity]. exfalso.
  destruct H as [(a & t & -> & H1 & H2)|(a & t & -> & H1 & H2)].
  - unfold checked in Ey. destruct (string_dec a "y"); [contradiction|]. apply Nat.eqb_eq in Ey. congruence.
  - unfold checked in Ex. destruct (string_dec a "x"); [contradiction|]. apply Nat.eqb_eq in Ex. congruence.
Qed.
Lemma parent_raises : forall ms nx ny xs ys input fs, tree fs -> lookup fs (log_of input) = Some DirN ->
  lookup fs (parent (old_of input)) <> Some DirN -> initfiles shown ms nx ny xs ys (log_dir input) fs = Raised fs.
Proof.
  intros ms nx ny xs ys input fs W Hl Hp. unfold initfiles. destruct (checked ny "y" ys); [|reflexivity].
  destruct (checked nx "x" xs); [|reflexivity]. unfold fresh_dir. fold (log_of input) (old_of input). rewrite Hl.
  assert (Ho : old_of input <> []) by (pose proof (o_plain input []) as P; rewrite app_nil_r in P; apply P).
  assert (R : rename (log_of input) (old_of input) fs = None).
  { unfold rename. destruct (lookup fs (parent (old_of input))) as [[|]|]; [contradiction|reflexivity|reflexivity]. }
  destruct (lookup fs (old_of input)) as [[|t]|] eqn:Eo; [|rewrite R; reflexivity|rewrite R; reflexivity].
  exfalso. rewrite (app_removelast_last ""%string Ho) in Eo. apply W in Eo. contradiction.
Qed.

(** The name of an input file in the working directory. *)
Lemma split_plain : forall x acc, no_slash x = true -> split_slash acc (x ++ "_log/") = [(acc ++ x ++ "_log")%string].
Proof.
  induction x as [|c x IH]; intros acc H.
  - cbn. match goal with |- context [string_dec ?u ""] => destruct (string_dec u "") as [E|] end.
    + exfalso. destruct acc; discriminate.
    + rewrite !str_app_assoc. reflexivity.
  - cbn in H. cbn [append split_slash]. destruct (ascii_dec c "/"); [discriminate|]. rewrite IH by exact H.
    rewrite str_app_assoc. reflexivity.
Qed.
Lemma path_of_plain : forall s, (forall t, s <> String "/" t) -> path_of s = split_slash "" s.
Proof.
  intros s H. destruct s as [|c t]; [reflexivity|]. unfold path_of.
  destruct c as [[] [] [] [] [] [] [] []]; try reflexivity. exfalso. apply (H t). reflexivity.
Qed.
Lemma names_plain : forall input, no_slash (before_dot input) = true ->
  log_of input = [(before_dot input ++ "_log")%string] /\ old_of input = [("old_" ++ before_dot input ++ "_log")%string].
Proof.
  intros input H. unfold log_of, old_of, log_dir, old_dir. split.
  - rewrite path_of_plain; [apply (split_plain _ ""); exact H|].
    intros t E. destruct (before_dot input) as [|c x]; [discriminate|]. cbn in *. injection E as -> _.
    destruct (ascii_dec "/" "/"); [discriminate|contradiction].
  - rewrite path_of_plain by (intros t; discriminate).
    change (split_slash "" ("old_" ++ before_dot input ++ "_log/")) with (split_slash "old_" (before_dot input ++ "_log/")).
    rewrite split_plain by exact H. reflexivity.
Qed.
Lemma completes_ld : forall ms nx ny xs ys input fs, tree fs -> no_slash (before_dot input) = true ->
  checked nx "x" xs = true -> checked ny "y" ys = true ->
  (forall t, lookup fs (log_of input) <> Some (FileN t)) -> (forall t, lookup fs (old_of input) <> Some (FileN t)) ->
  exists fs', initfiles shown ms nx ny xs ys (log_dir input) fs = Done fs'.
Proof.
  intros ms nx ny xs ys input fs W Hs Hx Hy Hl Ho. unfold initfiles. rewrite Hx, Hy.
  assert (F : exists fs1, fresh_dir (log_dir input) fs = Done fs1); [|destruct F as (fs1 & ->); eauto].
  destruct (names_plain input Hs) as (El & Eo).
  assert (Hmk : forall fs2, (forall t, lookup fs2 (log_of input) <> Some (FileN t)) -> exists fs3, makedirs (log_of input) fs2 = Some fs3).
  { intros fs2 H2. unfold makedirs. apply make_total. intros p s Ep t. cbn in Ep. rewrite El in *.
    destruct p as [|a [|b p]]; cbn in Ep; [discriminate| |discriminate]. injection Ep as <- _. apply H2. }
  assert (Hren : forall fs1, lookup fs1 (old_of input) = None -> rename (log_of input) (old_of input) fs1 = Some (move_tree (log_of input) (old_of input) fs1)).
  { intros fs1 H1. unfold rename. rewrite H1. rewrite Eo. reflexivity. }
  assert (Lp := fun s => l_plain input s). assert (Op := fun s => o_plain input s).
  assert (Lp0 : log_of input <> [] /\ log_of input <> ["/"%string]) by (specialize (Lp []); rewrite app_nil_r in Lp; exact Lp).
  assert (Op0 : old_of input <> [] /\ old_of input <> ["/"%string]) by (specialize (Op []); rewrite app_nil_r in Op; exact Op).
  assert (Hmoved : forall fs1, (forall s, entry fs1 (old_of input ++ s) = None) -> forall t,
    lookup (move_tree (log_of input) (old_of input) fs1) (log_of input) <> Some (FileN t)).
  { intros fs1 H1 t. rewrite lookup_entry by apply Lp0. rewrite entry_move; [|exact H1|apply apart_lo].
    pose proof (apart_ol input []) as A. rewrite app_nil_r in A. rewrite A.
    pose proof (strip_app (log_of input) []) as B. rewrite app_nil_r in B. rewrite B. discriminate. }
  unfold fresh_dir. fold (log_of input) (old_of input).
  destruct (lookup fs (log_of input)) as [[|t]|] eqn:E1; [|exfalso; apply (Hl t); reflexivity|].
  - destruct (lookup fs (old_of input)) as [[|t]|] eqn:E2; [|exfalso; apply (Ho t); reflexivity|].
    + assert (Ee : forall s, entry (remove_tree (old_of input) fs) (old_of input ++ s) = None).
      { intros s. rewrite entry_remove, strip_app. reflexivity. }
      rewrite Hren by (rewrite lookup_entry by apply Op0; rewrite <- (app_nil_r (old_of input)) at 2; apply Ee).
      destruct (Hmk _ (Hmoved _ Ee)) as (fs3 & ->). eauto.
    + assert (Ee : forall s, entry fs (old_of input ++ s) = None).
      { intros s. rewrite <- lookup_entry by apply Op. destruct s as [|b s]; [rewrite app_nil_r; exact E2|].
        apply (tree_none fs _ W); [rewrite E2; discriminate|discriminate]. }
      rewrite Hren by exact E2. destruct (Hmk _ (Hmoved _ Ee)) as (fs3 & ->). eauto.
  - destruct (Hmk fs) as (fs3 & ->); [rewrite E1; discriminate|eauto].
Qed.

(** ** Columns. *)
Lemma columns_ld : forall n dflt names, checked n dflt names = true ->
  names = [dflt] \/ (exists a t, names = a :: t /\ a <> dflt) -> length (columns shown n dflt names) = 2 + n.
Proof.
  intros n dflt names Hc H. unfold columns. rewrite app_length. cbn [length]. f_equal.
  destruct H as [->|(a & t & -> & H)].
  - destruct (string_dec dflt dflt); [|contradiction]. rewrite map_length, seq_length. reflexivity.
  - unfold checked in Hc. destruct (string_dec a dflt); [contradiction|]. apply Nat.eqb_eq in Hc.
    destruct t as [|b t]; [destruct (string_dec a dflt); [contradiction|]|]; symmetry; exact Hc.
Qed.
(** Names after the first that is the default are not counted. *)
Lemma columns_miss : forall dflt b t n, checked n dflt (dflt :: b :: t) = true /\
  length (columns shown n dflt (dflt :: b :: t)) = 4 + length t.
Proof. intros dflt b t n. unfold checked. destruct (string_dec dflt dflt); [|contradiction]. split; reflexivity. Qed.
End Final.
