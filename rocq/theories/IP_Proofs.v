(** Proofs about reading input files. *)
From Coq Require Import Ascii String List Arith ZArith Bool Lia.
From Verif Require Import IP_Model IP_Spec.
Import ListNotations.
Open Scope list_scope.

Lemma teqb_iff : forall a b, teqb a b = true <-> a = b. Proof. intros a b. unfold teqb. destruct (list_eq_dec ascii_dec a b); split; intros; congruence. Qed.
Lemma teqb_refl : forall a, teqb a a = true. Proof. intros; now apply teqb_iff. Qed.
Lemma teqb_neq : forall a b, a <> b -> teqb a b = false. Proof. intros a b H. destruct (teqb a b) eqn:E; [|reflexivity]. apply teqb_iff in E. contradiction. Qed.
Lemma mem_iff : forall x l, mem x l = true <-> In x l.
Proof. intros x l. unfold mem. rewrite existsb_exists. split; [intros (y & I & E); apply teqb_iff in E; now subst|intros I; exists x; split; [exact I|apply teqb_refl]]. Qed.
Lemma mem_false : forall x l, mem x l = false <-> ~ In x l. Proof. intros. rewrite <- mem_iff. destruct (mem x l); split; intros; congruence. Qed.

Section File.
  Variable isspace isalpha : ascii -> bool.
  Notation strip := (strip isspace). Notation lstrip := (lstrip isspace). Notation blank := (blank isspace). Notation trimmed := (trimmed isspace).

  Lemma prefix_iff : forall a s, prefix a s = true <-> exists w, s = a ++ w.
  Proof.
    induction a as [|x a IH]; intros s; cbn [prefix]; [split; [intros _; now exists s|reflexivity]|]. destruct s as [|y s]; [split; [discriminate|intros [w E]; discriminate]|].
    rewrite andb_true_iff, IH. split.
    - intros [E (w & ->)]. apply Ascii.eqb_eq in E. subst. now exists w.
    - intros [w E]. injection E as -> ->. split; [apply Ascii.eqb_refl|now exists w].
  Qed.
  Lemma contains_iff : forall a s, contains a s = true <-> occurs a s.
  Proof.
    intros a s. induction s as [|c s IH]; cbn [contains]; rewrite orb_true_iff, prefix_iff.
    - split; [intros [[w E]|E]; [exists [], w; exact E|discriminate]|]. intros (u & w & E). symmetry in E. apply app_eq_nil in E. destruct E as [-> E]. left. exists w. now rewrite E.
    - rewrite IH. split.
      + intros [[w E]|(u & w & E)]; [exists [], w; exact E|exists (c :: u), w; now rewrite E].
      + intros (u & w & E). destruct u as [|x u]; [left; now exists w|right]. injection E as -> E. now exists u, w.
  Qed.
  Lemma no_data_iff : forall s, contains (t "env_data") s = false <-> no_data s.
  Proof. intros s. unfold no_data. rewrite <- contains_iff. destruct (contains (t "env_data") s); split; intros; congruence. Qed.

  (** *** strip *)
  Lemma lstrip_blank : forall w s, blank w -> lstrip (w ++ s) = lstrip s.
  Proof. induction w as [|c w IH]; intros s B; [reflexivity|]. apply Forall_cons_iff in B. destruct B as [C B]. cbn. rewrite C. now apply IH. Qed.
  Lemma lstrip_fix : forall s, (forall c u, s = c :: u -> isspace c = false) -> lstrip s = s.
  Proof. intros [|c s] H; [reflexivity|]. cbn. now rewrite (H c s eq_refl). Qed.
  Lemma blank_rev : forall w, blank w -> blank (rev w). Proof. intros w B. now apply Forall_rev. Qed.
  Lemma strip_blank : forall w, blank w -> strip w = [].
  Proof. intros w B. unfold strip. assert (lstrip w = []) as ->; [|reflexivity]. rewrite <- (app_nil_r w), lstrip_blank; [reflexivity|exact B]. Qed.
  Lemma strip_mid : forall w s w', blank w -> blank w' -> trimmed s -> strip (w ++ s ++ w') = s.
  Proof.
    intros w s w' A B [T1 T2]. unfold strip. rewrite lstrip_blank by exact A. destruct s as [|c s].
    - cbn [app]. assert (lstrip w' = []) as ->; [|reflexivity]. rewrite <- (app_nil_r w'), lstrip_blank; [reflexivity|exact B].
    - rewrite (lstrip_fix ((c :: s) ++ w')); [|intros c0 u E; injection E as <- _; now apply (T1 c s)]. rewrite rev_app_distr, lstrip_blank by now apply blank_rev.
      rewrite lstrip_fix; [apply rev_involutive|]. intros c0 u E. apply (T2 c0 (rev u)). rewrite <- (rev_involutive (c :: s)), E. reflexivity.
  Qed.
  Lemma lstrip_suffix : forall s, exists w, s = w ++ lstrip s /\ blank w.
  Proof. induction s as [|c s (w & E & B)]; [exists []; split; [reflexivity|constructor]|]. cbn. destruct (isspace c) eqn:C; [|exists []; split; [reflexivity|constructor]]. exists (c :: w). split; [cbn; now rewrite <- E|now constructor]. Qed.
  Lemma strip_split : forall s, exists w w', blank w /\ blank w' /\ s = w ++ strip s ++ w'.
  Proof.
    intros s. destruct (lstrip_suffix s) as (w & E & B). destruct (lstrip_suffix (rev (lstrip s))) as (w' & E' & B'). exists w, (rev w'). split; [exact B|]. split; [now apply blank_rev|].
    rewrite E at 1. f_equal. unfold strip. rewrite <- rev_app_distr, <- E'. now rewrite rev_involutive.
  Qed.
  Lemma lstrip_head : forall s c u, lstrip s = c :: u -> isspace c = false.
  Proof. induction s as [|x s IH]; intros c u E; cbn in E; [discriminate|]. destruct (isspace x) eqn:X; [now apply (IH c u)|]. injection E as -> _. exact X. Qed.
  Lemma strip_trimmed : forall s, trimmed (strip s).
  Proof.
    intros s. split.
    - intros c u E. unfold strip in E. destruct (lstrip_suffix (rev (lstrip s))) as (w' & E' & B'). apply (f_equal (@rev ascii)) in E'. rewrite rev_involutive, rev_app_distr in E'. rewrite E in E'. cbn [app] in E'. now apply (lstrip_head s c (u ++ rev w')).
    - intros c u E. unfold strip in E. apply (f_equal (@rev ascii)) in E. rewrite rev_involutive, rev_app_distr in E. cbn in E. now apply (lstrip_head _ _ _ E).
  Qed.
  Lemma heading_iff : forall h s, no_data s -> trimmed h -> (heading isspace h s <-> strip s = h).
  Proof.
    intros h s N T. split.
    - intros (_ & _ & w & w' & A & B & ->). now apply strip_mid.
    - intros <-. split; [exact N|]. split; [exact T|]. destruct (strip_split s) as (w & w' & A & B & E). now exists w, w'.
  Qed.

  (** *** Reading *)
  Lemma read_plain : forall l rest, Forall no_data l -> read isspace None (l ++ rest) = option_map (app (map strip l)) (read isspace None rest).
  Proof.
    induction l as [|s l IH]; intros rest N; cbn [app map].
    - destruct (read isspace None rest); reflexivity.
    - apply Forall_cons_iff in N. destruct N as [A N]. cbn [read]. rewrite (proj2 (no_data_iff s) A). rewrite (IH rest N). destruct (read isspace None rest); reflexivity.
  Qed.
  Lemma read_all : forall l, Forall no_data l -> read isspace None l = Some (map strip l).
  Proof. intros l N. rewrite <- (app_nil_r l) at 1. rewrite read_plain by exact N. cbn. now rewrite app_nil_r. Qed.
  Hypothesis ok : sane isspace isalpha.
  Lemma inert_strip : forall s, inert isspace s -> kept_line (strip s) = false /\ first_ok isalpha (strip s) = true.
  Proof.
    intros s [_ [B|(w & u & B & ->)]]; [rewrite strip_blank by exact B; split; reflexivity|]. destruct ok as (A1 & A2 & A3).
    assert (E : exists v, strip (w ++ "#"%char :: u) = "#"%char :: v).
    { unfold IP_Model.strip. rewrite lstrip_blank by exact B. assert (L : lstrip ("#"%char :: u) = "#"%char :: u) by (cbn [IP_Model.lstrip]; now rewrite A1). rewrite L. cbn [rev].
      destruct (lstrip_suffix (rev u ++ ["#"%char])) as (w' & E & Bw). destruct (rev (lstrip (rev u ++ ["#"%char]))) as [|c v] eqn:R.
      - apply (f_equal (@rev ascii)) in R. rewrite rev_involutive in R. cbn in R. rewrite R, app_nil_r in E. exfalso. rewrite <- E in Bw. unfold IP_Spec.blank in Bw. rewrite Forall_app in Bw. destruct Bw as [_ Bw]. apply Forall_inv in Bw. congruence.
      - exists v. f_equal. apply (f_equal (@rev ascii)) in R. rewrite rev_involutive in R. cbn in R. rewrite R in E. rewrite app_assoc in E. apply app_inj_tail in E. symmetry. tauto. }
    destruct E as (v & ->). cbn. split; [reflexivity|]. now rewrite orb_true_r.
  Qed.
  Lemma inert_removed : forall l1 s l2, Forall no_data l1 -> inert isspace s -> input_file isspace isalpha (l1 ++ s :: l2) = input_file isspace isalpha (l1 ++ l2).
  Proof.
    intros l1 s l2 N I. unfold input_file. rewrite !read_plain by exact N. cbn [read]. rewrite (proj2 (no_data_iff s) (proj1 I)). destruct (read isspace None l2) as [r|]; [|reflexivity]. cbn [option_map].
    destruct (inert_strip s I) as [K F]. rewrite !forallb_app, !filter_app. cbn [forallb filter]. now rewrite K, F.
  Qed.
  Lemma bad_first : forall l1 s l2 c u, Forall no_data l1 -> no_data s -> strip s = c :: u -> isalpha c = false -> c <> "#"%char -> c <> "{"%char -> forall l, input_file isspace isalpha (l1 ++ s :: l2) <> Ok l.
  Proof.
    intros l1 s l2 c u N Ns E A H1 H2 l. unfold input_file. rewrite read_plain by exact N. cbn [read]. rewrite (proj2 (no_data_iff s) Ns). destruct (read isspace None l2) as [r|]; cbn [option_map]; [|discriminate].
    rewrite forallb_app. cbn [forallb]. rewrite E. cbn [first_ok]. rewrite A. destruct (Ascii.eqb c "#") eqn:X; [apply Ascii.eqb_eq in X; contradiction|]. destruct (Ascii.eqb c "{") eqn:Y; [apply Ascii.eqb_eq in Y; contradiction|]. cbn. rewrite andb_false_r. discriminate.
  Qed.
  Lemma input_plain : forall lines l, Forall no_data lines -> input_file isspace isalpha lines = Ok l -> l = filter kept_line (map strip lines).
  Proof. intros lines l N H. unfold input_file in H. rewrite read_all in H by exact N. destruct (forallb _ _); [|discriminate]. destruct (has_block _ _); [|discriminate]. now injection H as <-. Qed.

  (** *** split *)
  Lemma split_none : forall c s, ~ In c s -> split c s = [s].
  Proof. induction s as [|x s IH]; intros N; [reflexivity|]. cbn [split]. destruct (Ascii.eqb x c) eqn:E; [apply Ascii.eqb_eq in E; subst; exfalso; apply N; now left|]. rewrite IH; [reflexivity|]. intros X. apply N. now right. Qed.
  Lemma split_nonempty : forall c s, split c s <> [].
  Proof. induction s as [|x s IH]; cbn [split]; [discriminate|]. destruct (Ascii.eqb x c); [discriminate|]. destruct (split c s); discriminate. Qed.
  Lemma split_app : forall c a s, ~ In c a -> split c (a ++ c :: s) = a :: split c s.
  Proof.
    induction a as [|x a IH]; intros s N; cbn [app split]; [now rewrite Ascii.eqb_refl|]. destruct (Ascii.eqb x c) eqn:E; [apply Ascii.eqb_eq in E; subst; exfalso; apply N; now left|]. rewrite IH; [reflexivity|]. intros X. apply N. now right.
  Qed.
  Lemma blank_neq : forall w c, blank w -> isspace c = false -> ~ In c w.
  Proof. intros w c B C I. unfold IP_Spec.blank in B. rewrite Forall_forall in B. specialize (B c I). congruence. Qed.

  Context {D : Type}.
  Variable to_dict : text -> option D.
  Notation parse_line := (parse_line isspace to_dict).
  Lemma line_value : forall s k v more, assigns isspace isalpha s k v more -> exists c u, strip s = c :: u /\ isalpha c = true /\ c <> "#"%char /\ In "="%char (strip s) /\ parse_line (strip s) = Some (k, Raw v).
  Proof.
    intros s k v more (N & Tk & Tv & Ek & Ev & (c & u & K & Al) & w1 & w2 & w3 & w4 & B1 & B2 & B3 & B4 & E & M). destruct ok as (A1 & A2 & A3).
    assert (G : exists z, strip s = k ++ w2 ++ "="%char :: z /\ forall x, strip x = k \/ True).
    { exists (skipn (List.length (k ++ w2 ++ ["="%char])) (strip s)). split; [|tauto]. unfold IP_Model.strip. rewrite E, lstrip_blank by exact B1.
      assert (L : lstrip (k ++ w2 ++ "="%char :: w3 ++ v ++ w4 ++ more) = k ++ w2 ++ "="%char :: w3 ++ v ++ w4 ++ more).
      { apply lstrip_fix. intros c0 u0 X. rewrite K in X. cbn in X. injection X as <- _. destruct Tk as [Tk _]. now apply (Tk c u). }
      rewrite L. set (a := k ++ w2). replace (k ++ w2 ++ "="%char :: w3 ++ v ++ w4 ++ more) with (a ++ "="%char :: w3 ++ v ++ w4 ++ more) by (unfold a; now rewrite <- app_assoc).
      set (z := w3 ++ v ++ w4 ++ more). rewrite rev_app_distr. cbn [rev]. rewrite <- app_assoc. cbn [app].
      assert (Q : forall x y, exists x', lstrip (x ++ "="%char :: y) = x' ++ "="%char :: y).
      { induction x as [|d x IH]; intros y; cbn [app IP_Model.lstrip]; [rewrite A2; now exists []|]. destruct (isspace d); [apply IH|]. now exists (d :: x). }
      destruct (Q (rev z) (rev a)) as (x' & ->). rewrite rev_app_distr. cbn [rev]. rewrite rev_involutive, <- app_assoc. cbn [app].
      replace (k ++ w2 ++ ["="%char]) with (a ++ ["="%char]) by (unfold a; now rewrite <- app_assoc). replace (a ++ "="%char :: rev x') with ((a ++ ["="%char]) ++ rev x') by now rewrite <- app_assoc.
      rewrite skipn_app, skipn_all, Nat.sub_diag. cbn [skipn app]. unfold a. now rewrite <- !app_assoc. }
    exists c. destruct G as (z & G & _). rewrite K in G. exists (u ++ w2 ++ "="%char :: z). split; [exact G|]. split; [exact Al|]. split; [intros ->; congruence|].
    split; [rewrite G; apply in_or_app; right; apply in_or_app; right; now left|].
    (* the parts *)
    assert (P : exists rest, map strip (split "=" (strip s)) = k :: v :: rest /\ forall x, In x (v :: rest) -> occurs x s).
    { destruct (strip_split s) as (y & y' & By & By' & Es).
      assert (Z : split "=" (strip s) = (k ++ w2) :: split "=" z). { rewrite G, <- K. replace (k ++ w2 ++ "="%char :: z) with ((k ++ w2) ++ "="%char :: z) by now rewrite <- app_assoc. apply split_app. intros X. apply in_app_or in X. destruct X as [X|X]; [contradiction|]. now apply (blank_neq w2 "="). }
      assert (Sk : strip (k ++ w2) = k) by exact (strip_mid [] k w2 (Forall_nil _) B2 Tk).
      (* z ++ y' = w3 ++ v ++ w4 ++ more *)
      assert (Zy : z ++ y' = w3 ++ v ++ w4 ++ more).
      { rewrite G, <- K in Es. rewrite E in Es.
        assert (Y : y = w1). { assert (H : lstrip (w1 ++ k ++ w2 ++ "="%char :: w3 ++ v ++ w4 ++ more) = lstrip (y ++ (k ++ w2 ++ "="%char :: z) ++ y')) by now rewrite Es.
          clear - Es B1 By K Tk. assert (Lk : forall q : unit, isspace c = false) by (intros; destruct Tk as [Tk _]; now apply (Tk c u)). subst k. revert y By Es. induction w1 as [|a w1 IH]; intros [|b y] By Es; cbn in Es; try reflexivity.
          - injection Es as -> _. apply Forall_inv in By. rewrite (Lk tt) in By. discriminate.
          - injection Es as -> _. apply Forall_inv in B1. rewrite (Lk tt) in B1. discriminate.
          - injection Es as -> Es. f_equal. apply IH; [now apply Forall_inv_tail in B1|now apply Forall_inv_tail in By|exact Es]. }
        subst y. apply app_inv_head in Es. rewrite <- !app_assoc in Es. apply app_inv_head in Es. apply app_inv_head in Es. cbn in Es. injection Es as Es. symmetry. exact Es. }
      destruct M as [->|(mu & ->)].
      - rewrite app_nil_r in Zy. assert (Nz : ~ In "="%char z).
        { intros X. assert (X' : In "="%char (z ++ y')) by (apply in_or_app; now left). rewrite Zy in X'. apply in_app_or in X'. destruct X' as [X'|X']; [now apply (blank_neq w3 "=")|]. apply in_app_or in X'. destruct X' as [X'|X']; [contradiction|now apply (blank_neq w4 "=")]. }
        rewrite Z, (split_none "=" z Nz). cbn [map]. rewrite Sk. exists []. split.
        + f_equal. f_equal. assert (Sz : strip z = strip (z ++ y')).
          { destruct (strip_split z) as (a & b & Ba & Bb & Ez). rewrite Ez at 2. rewrite <- !app_assoc. rewrite strip_mid; [reflexivity|exact Ba| |apply strip_trimmed]. apply Forall_app. split; assumption. }
          rewrite Sz, Zy. now apply strip_mid.
        + intros x [<-|[]]. rewrite E. exists (w1 ++ k ++ w2 ++ "="%char :: w3), w4. now rewrite <- !app_assoc, app_nil_r.
      - (* z contains the second = since y' is blank *)
        assert (Zq : exists z', z = (w3 ++ v ++ w4) ++ "="%char :: z' /\ mu = z' ++ y').
        { assert (H : z ++ y' = (w3 ++ v ++ w4) ++ "="%char :: mu) by (rewrite Zy, <- !app_assoc; reflexivity). clear - H By' A2. remember (w3 ++ v ++ w4) as q eqn:Hq. clear Hq. revert q H. induction z as [|a z IH]; intros q H; cbn in H.
          - exfalso. assert (X : In "="%char y') by (rewrite H; apply in_or_app; right; now left). now apply (blank_neq y' "=").
          - destruct q as [|b q]; cbn in H; injection H as -> H; [exists z; split; [reflexivity|now rewrite H]|]. destruct (IH q H) as (z' & -> & M'). exists z'. split; [reflexivity|exact M']. }
        destruct Zq as (z' & -> & ->). assert (Nq : ~ In "="%char (w3 ++ v ++ w4)).
        { intros X'. apply in_app_or in X'. destruct X' as [X'|X']; [now apply (blank_neq w3 "=")|]. apply in_app_or in X'. destruct X' as [X'|X']; [contradiction|now apply (blank_neq w4 "=")]. }
        rewrite Z, split_app by exact Nq. cbn [map]. rewrite Sk, (strip_mid w3 v w4 B3 B4 Tv). exists (map strip (split "=" z')). split; [reflexivity|].
        intros x [<-|X].
        + rewrite E. exists (w1 ++ k ++ w2 ++ "="%char :: w3), (w4 ++ "="%char :: z' ++ y'). now rewrite <- !app_assoc.
        + apply in_map_iff in X. destruct X as (p & <- & X). assert (Oc : occurs p z').
          { clear - X. revert p X. induction z' as [|a z IH]; intros p X; cbn [split] in X; [destruct X as [<-|[]]; exists [], []; reflexivity|]. destruct (Ascii.eqb a "=").
            - destruct X as [<-|X]; [exists [], (a :: z); reflexivity|]. destruct (IH p X) as (f & g & ->). now exists (a :: f), g.
            - assert (H1 : forall h tl, split "=" z = h :: tl -> exists g, z = h ++ g). { clear. induction z as [|b z IH]; intros h tl H; cbn [split] in H; [injection H as <- _; now exists []|]. destruct (Ascii.eqb b "="); [injection H as <- _; now exists (b :: z)|]. destruct (split "=" z) as [|h' t'] eqn:S'; [injection H as <- _; now exists z|]. injection H as <- _. destruct (IH h' t' eq_refl) as (g & ->). now exists g. }
              destruct (split "=" z) as [|h tl] eqn:S'; [now apply split_nonempty in S'|]. destruct X as [<-|X].
              + destruct (H1 h tl eq_refl) as (g & ->). now exists [], g.
              + destruct (IH p (or_intror X)) as (f & g & ->). now exists (a :: f), g. }
          destruct Oc as (f & g & ->). destruct (strip_split p) as (a & b & _ & _ & Ep). rewrite E. exists (w1 ++ k ++ w2 ++ "="%char :: w3 ++ v ++ w4 ++ "="%char :: f ++ a), (b ++ g ++ y'). rewrite Ep at 1. repeat (rewrite <- ?app_assoc; cbn [app]). reflexivity. }
    destruct P as (rest & P & Oc). unfold IP_Model.parse_line. rewrite P.
    assert (Mm : mem (t "env_data") (k :: v :: rest) = false).
    { apply mem_false. intros [X|X].
      - apply N. rewrite E. exists w1, (w2 ++ "="%char :: w3 ++ v ++ w4 ++ more). now rewrite X.
      - now apply N, Oc. }
    now rewrite Mm.
  Qed.

  (** *** Finding a card *)
  Lemma index_here : forall x l r, ~ In x l -> index x (l ++ x :: r) = Some (List.length l).
  Proof. induction l as [|y l IH]; intros r N; cbn [app index List.length]; [now rewrite teqb_refl|]. rewrite teqb_neq by (intros ->; apply N; now left). rewrite IH; [reflexivity|]. intros X. apply N. now right. Qed.
  Lemma block_between : forall card l b, read_of card <> end_of card -> between card l b -> block_of card l = Some b.
  Proof.
    intros card l b Ne (pre & post & -> & R & En). unfold block_of. rewrite index_here by exact R.
    replace (pre ++ read_of card :: b ++ end_of card :: post) with ((pre ++ read_of card :: b) ++ end_of card :: post) by now rewrite <- app_assoc.
    rewrite index_here. 2:{ intros X. apply in_app_or in X. destruct X as [X|[X|X]]; [apply En; apply in_or_app; now left|contradiction|apply En; apply in_or_app; now right]. }
    f_equal. rewrite <- app_assoc. cbn [app].
    replace (pre ++ read_of card :: b ++ end_of card :: post) with ((pre ++ [read_of card]) ++ b ++ end_of card :: post) by (rewrite <- app_assoc; reflexivity).
    rewrite skipn_app. rewrite skipn_all2 by (rewrite app_length; cbn [List.length]; lia). cbn [app]. replace (S (List.length pre) - List.length (pre ++ [read_of card])) with 0 by (rewrite app_length; cbn [List.length]; lia). cbn [skipn].
    rewrite app_length. cbn [List.length]. replace (List.length pre + S (List.length b) - S (List.length pre)) with (List.length b) by lia. now rewrite firstn_app, firstn_all, Nat.sub_diag, firstn_O, app_nil_r.
  Qed.
  Lemma read_not_end : forall card, read_of card <> end_of card. Proof. intros card H. discriminate H. Qed.

  Lemma body_no_data : forall whole l d, body isspace isalpha whole l d -> Forall no_data l.
  Proof. intros whole l d B. induction B as [|s l d I B IH|s k v more l d A W B IH]; constructor; auto; [apply I|apply A]. Qed.
  Notation parse_lines := (parse_lines isspace to_dict).
  Definition step (acc : option (list (text * @value D))) (s : text) := match acc, parse_line s with Some d, Some (k, v) => Some (dset k v d) | _, _ => None end.
  Lemma parse_fold : forall b, parse_lines b = fold_left step b (Some []). Proof. reflexivity. Qed.
  Lemma body_fold : forall whole l d, body isspace isalpha whole l d -> forall acc,
    fold_left step (filter kept_line (map strip l)) (Some acc) = Some (fold_left (fun a x => dset (fst x) (Raw (snd x)) a) d acc) /\
    Forall (fun s => kept_line s = true -> In "="%char s) (map strip l).
  Proof.
    intros whole l d B. induction B as [|s l d I B IH|s k v more l d A W B IH]; intros acc; cbn [map filter].
    - split; [reflexivity|constructor].
    - destruct (inert_strip s I) as [K _]. rewrite K. destruct (IH acc) as [P Q]. split; [exact P|]. constructor; [congruence|exact Q].
    - destruct (line_value s k v more A) as (c & u & E & Al & Nh & Eq & P). assert (K : kept_line (strip s) = true). { rewrite E. cbn. destruct (Ascii.eqb c "#") eqn:X; [apply Ascii.eqb_eq in X; contradiction|reflexivity]. }
      rewrite K. cbn [fold_left fst snd]. unfold step at 2. rewrite P. destruct (IH (dset k (Raw v) acc)) as [P1 Q]. split; [exact P1|]. constructor; [now intros _|exact Q].
  Qed.
  Lemma dget_dset : forall {V} k k' (v : V) d, dget k (dset k' v d) = if teqb k k' then Some v else dget k d.
  Proof.
    intros V k k' v d. unfold dget. induction d as [|[k0 v0] d IH]; cbn [dset find fst].
    - destruct (teqb k k'); reflexivity.
    - destruct (teqb k' k0) eqn:E.
      + apply teqb_iff in E. subst k0. cbn [find fst]. destruct (teqb k k'); reflexivity.
      + cbn [find fst]. destruct (teqb k k0) eqn:G.
        * apply teqb_iff in G. subst k0. destruct (teqb k k') eqn:H; [|reflexivity]. apply teqb_iff in H. subst. rewrite teqb_refl in E. discriminate.
        * exact IH.
  Qed.
  Lemma dget_app : forall {V} k (a b : list (text * V)), dget k (a ++ b) = match dget k a with Some v => Some v | None => dget k b end.
  Proof. intros V k a b. unfold dget. induction a as [|[k0 v0] a IH]; [reflexivity|]. cbn [app find fst]. destruct (teqb k k0); [reflexivity|exact IH]. Qed.
  Lemma fold_last : forall d (acc : list (text * @value D)) k, dget k (fold_left (fun a x => dset (fst x) (Raw (snd x)) a) d acc) = match last_value k d with Some v => Some (Raw v) | None => dget k acc end.
  Proof.
    unfold last_value. induction d as [|[k0 v0] d IH]; intros acc k; [reflexivity|]. cbn [fold_left fst snd rev]. rewrite IH, dget_app. destruct (dget k (rev d)); [reflexivity|]. rewrite dget_dset. unfold dget at 2. cbn [find fst]. destruct (teqb k k0); reflexivity.
  Qed.
  Lemma card_values : forall whole card d lines l, ~ In "="%char card -> file_with isspace isalpha whole card d lines -> input_file isspace isalpha lines = Ok l ->
    exists p, parse_card isspace to_dict card l = Some p /\ forall k, dget k p = option_map Raw (last_value k d).
  Proof.
    intros whole card d lines l Nc (pre & rd & bd & en & post & -> & Pre & Post & Rd & En & Bd) H.
    assert (Npre : Forall no_data pre) by (eapply Forall_impl; [|exact Pre]; intros s [X _]; exact X).
    assert (Nall : Forall no_data (pre ++ rd :: bd ++ en :: post)).
    { apply Forall_app. split; [exact Npre|]. constructor; [apply Rd|]. apply Forall_app. split; [now apply (body_no_data whole bd d)|]. constructor; [apply En|exact Post]. }
    apply input_plain in H; [|exact Nall]. rewrite map_app in H. cbn [map] in H. rewrite map_app in H. cbn [map] in H. rewrite filter_app in H. cbn [filter] in H.
    assert (Sr : strip rd = read_of card) by (apply heading_iff; [apply Rd|apply Rd|exact Rd]). assert (Se : strip en = end_of card) by (apply heading_iff; [apply En|apply En|exact En]).
    rewrite Sr in H. assert (Kr : kept_line (read_of card) = true) by reflexivity. rewrite Kr in H. rewrite filter_app in H. cbn [filter] in H. rewrite Se in H. assert (Ke : kept_line (end_of card) = true) by reflexivity. rewrite Ke in H.
    destruct (body_fold whole bd d Bd []) as [P Q].
    assert (Bt : between card l (filter kept_line (map strip bd))).
    { exists (filter kept_line (map strip pre)), (filter kept_line (map strip post)). split; [exact H|].
      assert (Np : forall h, (h = read_of card \/ h = end_of card) -> ~ In h (filter kept_line (map strip pre))).
      { intros h Hh X. apply filter_In in X. destruct X as [X _]. apply in_map_iff in X. destruct X as (s & Es & X). rewrite Forall_forall in Pre. destruct (Pre s X) as (A & B & C). destruct Hh as [-> | ->].
        - apply B. apply heading_iff; [exact A|apply Rd|exact Es].
        - apply C. apply heading_iff; [exact A|apply En|exact Es]. }
      split; [now apply Np; left|]. intros X. apply in_app_or in X. destruct X as [X|X]; [now apply (Np (end_of card) (or_intror eq_refl))|].
      apply filter_In in X. destruct X as [X K]. rewrite Forall_forall in Q. specialize (Q _ X K). unfold end_of in Q. apply in_app_or in Q. destruct Q as [Q|Q]; [|contradiction]. cbn in Q. intuition discriminate. }
    unfold parse_card. rewrite (block_between card l _ (read_not_end card) Bt). rewrite parse_fold, P. eexists. split; [reflexivity|]. intros k. rewrite fold_last. destruct (last_value k d); reflexivity.
  Qed.
  Lemma no_equals : forall card l b s, between card l b -> In s b -> ~ In "="%char s -> parse_card isspace to_dict card l = None.
  Proof.
    intros card l b s B I N. unfold parse_card. rewrite (block_between card l b (read_not_end card) B). rewrite parse_fold.
    assert (P : parse_line s = None) by (unfold IP_Model.parse_line; now rewrite (split_none "=" s N)).
    assert (Z : forall b, fold_left step b None = None) by (induction b0; auto).
    clear B. generalize (@Some (list (text * @value D)) []). induction b as [|x b IH]; intros acc; [destruct I|]. cbn [fold_left]. destruct I as [->|I]; [|now apply IH]. unfold step at 2. rewrite P. destruct acc; apply Z.
  Qed.
  Lemma end_first : forall card pre mid post, ~ In (read_of card) (pre ++ mid) -> ~ In (end_of card) pre ->
    parse_card isspace to_dict card (pre ++ end_of card :: mid ++ read_of card :: post) = Some [].
  Proof.
    intros card pre mid post R En. unfold parse_card, block_of.
    assert (I1 : index (read_of card) (pre ++ end_of card :: mid ++ read_of card :: post) = Some (List.length (pre ++ end_of card :: mid))).
    { replace (pre ++ end_of card :: mid ++ read_of card :: post) with ((pre ++ end_of card :: mid) ++ read_of card :: post) by now rewrite <- app_assoc. apply index_here. intros X. apply in_app_or in X. destruct X as [X|[X|X]]; [apply R; apply in_or_app; now left|discriminate X|apply R; apply in_or_app; now right]. }
    rewrite I1, (index_here (end_of card) pre _ En). replace (List.length pre - S (List.length (pre ++ end_of card :: mid))) with 0 by (rewrite app_length; lia). reflexivity.
  Qed.
  Lemma has_iff : forall {V} k (d : list (text * V)), has k d = true <-> In k (map fst d). Proof. intros. apply mem_iff. Qed.
  Lemma has_block_iff : forall c l, has_block c l = true <-> In (read_of c) l /\ In (end_of c) l. Proof. intros. unfold has_block. now rewrite andb_true_iff, !mem_iff. Qed.
  Lemma parse_all_names : forall cards l r, parse_all isspace to_dict cards l = Some r -> map fst r = cards.
  Proof. induction cards as [|c cards IH]; intros l r H; cbn in H; [injection H as <-; reflexivity|]. destruct (parse_card _ _ c l); [|discriminate]. destruct (parse_all _ _ cards l) as [u|] eqn:E; [|discriminate]. injection H as <-. cbn. f_equal. now apply (IH l). Qed.
  Lemma algorithms_iff : forall l g u algs, blocks isspace to_dict l = Some (g, u, algs) -> forall c, In c (map fst algs) <-> In c algorithms /\ In (read_of c) l /\ In (end_of c) l.
  Proof.
    intros l g u algs H c. unfold blocks in H. destruct (parse_card _ _ _ l); [|discriminate]. destruct (parse_all _ _ _ l) as [a|] eqn:E; [|discriminate].
    assert (X : a = algs) by (destruct (has_block (t "TUNE") l); [destruct (parse_card _ _ _ l); [|discriminate]; destruct (_ && _); [|discriminate]|]; now injection H). subst a.
    apply parse_all_names in E. rewrite E, filter_In, has_block_iff. tauto.
  Qed.
  Lemma tune_one : forall l g u algs, blocks isspace to_dict l = Some (g, Some u, algs) -> In (t "method") (map fst u) /\ List.length algs = 1.
  Proof.
    intros l g u algs H. unfold blocks in H. destruct (parse_card _ _ _ l); [|discriminate]. destruct (parse_all _ _ _ l) as [a|] eqn:E; [|discriminate]. destruct (has_block (t "TUNE") l); [|discriminate].
    destruct (parse_card _ _ _ l) as [u'|]; [|discriminate]. destruct (has (t "method") u' && (List.length a =? 1)%nat) eqn:B; [|discriminate]. injection H as <- <- <-. apply andb_true_iff in B. destruct B as [B1 B2]. split; [now apply has_iff|now apply Nat.eqb_eq].
  Qed.
  Lemma tune_read : forall l g u algs, blocks isspace to_dict l = Some (g, u, algs) -> (In (t "READ TUNE") l /\ In (t "END TUNE") l <-> u <> None).
  Proof.
    intros l g u algs H. unfold blocks in H. destruct (parse_card _ _ _ l); [|discriminate]. destruct (parse_all _ _ _ l) as [a|] eqn:E; [|discriminate]. change (t "READ TUNE") with (read_of (t "TUNE")). change (t "END TUNE") with (end_of (t "TUNE")). rewrite <- has_block_iff.
    destruct (has_block (t "TUNE") l).
    - destruct (parse_card _ _ _ l) as [u'|]; [|discriminate]. destruct (_ && _); [|discriminate]. injection H as <- <- <-. split; [discriminate|reflexivity].
    - injection H as <- <- <-. split; [discriminate|intros X; now elim X].
  Qed.

  (** *** env_data *)
  Lemma count_is : forall c s, count c s = count_occ ascii_dec s c.
  Proof. intros c s. unfold count. induction s as [|x s IH]; [reflexivity|]. cbn [filter count_occ]. destruct (ascii_dec x c) as [->|N]; [rewrite Ascii.eqb_refl; cbn; now rewrite IH|]. destruct (Ascii.eqb c x) eqn:E; [apply Ascii.eqb_eq in E; congruence|exact IH]. Qed.
  Lemma balanced_iff : forall s, balanced s = true <-> even_braces s. Proof. intros s. unfold balanced, even_braces. now rewrite Nat.eqb_eq, !count_is. Qed.
  Lemma balanced_false : forall s, ~ even_braces s -> balanced s = false. Proof. intros s H. destruct (balanced s) eqn:E; [|reflexivity]. apply balanced_iff in E. contradiction. Qed.
  Lemma after_hash_none : forall s, ~ In "#"%char s -> after_hash s = None.
  Proof. induction s as [|c s IH]; intros N; [reflexivity|]. cbn. destruct (Ascii.eqb c "#") eqn:E; [apply Ascii.eqb_eq in E; subst; exfalso; apply N; now left|]. apply IH. intros X. apply N. now right. Qed.
  Lemma cut_line : forall s c, ~ In "#"%char (s ++ [c]) -> cut (s ++ [c]) = s.
  Proof. intros s c N. unfold cut. rewrite after_hash_none by now rewrite <- in_rev. apply removelast_last. Qed.
  Lemma cut_comment : forall s u, ~ In "#"%char u -> cut (s ++ "#"%char :: u) = s.
  Proof.
    intros s u N. unfold cut. rewrite rev_app_distr. cbn [rev]. rewrite <- app_assoc. cbn [app]. assert (H : forall a b, ~ In "#"%char a -> after_hash (a ++ "#"%char :: b) = Some b).
    { induction a as [|x a IH]; intros b Na; [reflexivity|]. cbn [app after_hash]. destruct (Ascii.eqb x "#") eqn:E; [apply Ascii.eqb_eq in E; subst; exfalso; apply Na; now left|]. apply IH. intros X. apply Na. now right. }
    rewrite H by now rewrite <- in_rev. apply rev_involutive.
  Qed.
  (** The lines of a dictionary: one more piece at a time, uneven until the last. *)
  Lemma read_pending : forall ls p rest, ls <> [] -> (forall n, 0 < n < List.length ls -> ~ even_braces (p ++ concat (map (fun s => strip (cut s)) (firstn n ls)))) ->
    even_braces (p ++ concat (map (fun s => strip (cut s)) ls)) -> read isspace (Some p) (ls ++ rest) = option_map (cons (p ++ concat (map (fun s => strip (cut s)) ls))) (read isspace None rest).
  Proof.
    induction ls as [|s ls IH]; intros p rest Ne U E; [contradiction|]. cbn [app read]. destruct ls as [|s' ls].
    - cbn [map concat] in E |- *. rewrite app_nil_r in E |- *. apply balanced_iff in E. now rewrite E.
    - rewrite balanced_false. 2:{ specialize (U 1). cbn [firstn map concat List.length] in U. rewrite app_nil_r in U. apply U. lia. }
      change (s :: s' :: ls) with ([s] ++ (s' :: ls)) in *. rewrite IH; [|discriminate| |].
      + cbn [map concat app]. now rewrite <- !app_assoc.
      + intros n Hn. specialize (U (S n)). cbn [app firstn map concat] in U. rewrite app_assoc in U. apply U. cbn [List.length] in *. lia.
      + cbn [app map concat] in E. now rewrite <- app_assoc.
  Qed.
  Lemma read_never : forall ls p, (forall n, 0 < n <= List.length ls -> ~ even_braces (p ++ concat (map (fun s => strip (cut s)) (firstn n ls)))) -> read isspace (Some p) ls = None.
  Proof.
    induction ls as [|s ls IH]; intros p U; [reflexivity|]. cbn [read]. rewrite balanced_false. 2:{ specialize (U 1). cbn [firstn map concat List.length] in U. rewrite app_nil_r in U. apply U. lia. }
    apply IH. intros n Hn. specialize (U (S n)). cbn [firstn map concat List.length] in U. rewrite app_assoc in U. apply U. lia.
  Qed.
  Lemma data_item : forall l1 s ls rest, Forall no_data l1 -> ~ no_data s -> (forall n, 0 < n < S (List.length ls) -> ~ even_braces (concat (map (fun s => strip (cut s)) (firstn n (s :: ls))))) ->
    even_braces (concat (map (fun s => strip (cut s)) (s :: ls))) ->
    read isspace None (l1 ++ s :: ls ++ rest) = option_map (fun r => map strip l1 ++ concat (map (fun s => strip (cut s)) (s :: ls)) :: r) (read isspace None rest).
  Proof.
    intros l1 s ls rest N Ds U E. rewrite read_plain by exact N. cbn [read].
    assert (C : contains (t "env_data") s = true) by (destruct (contains (t "env_data") s) eqn:X; [reflexivity|apply no_data_iff in X; contradiction]). rewrite C. destruct ls as [|s' ls].
    - cbn [map concat app] in E |- *. rewrite app_nil_r in E |- *. apply balanced_iff in E. rewrite E. destruct (read isspace None rest); reflexivity.
    - rewrite balanced_false. 2:{ specialize (U 1). cbn [firstn map concat List.length] in U. rewrite app_nil_r in U. apply U. lia. }
      rewrite read_pending; [|discriminate| |exact E].
      + destruct (read isspace None rest); reflexivity.
      + intros n Hn. specialize (U (S n)). cbn [firstn map concat] in U. apply U. cbn [List.length] in *. lia.
  Qed.
  Lemma data_hangs : forall l1 s ls, Forall no_data l1 -> ~ no_data s -> (forall n, 0 < n <= S (List.length ls) -> ~ even_braces (concat (map (fun s => strip (cut s)) (firstn n (s :: ls))))) ->
    input_file isspace isalpha (l1 ++ s :: ls) = Hang.
  Proof.
    intros l1 s ls N Ds U. unfold input_file. rewrite read_plain by exact N. cbn [read].
    assert (C : contains (t "env_data") s = true) by (destruct (contains (t "env_data") s) eqn:X; [reflexivity|apply no_data_iff in X; contradiction]). rewrite C.
    rewrite balanced_false. 2:{ specialize (U 1). cbn [firstn map concat List.length] in U. rewrite app_nil_r in U. apply U. lia. }
    rewrite read_never; [reflexivity|]. intros n Hn. specialize (U (S n)). cbn [firstn map concat List.length] in U. apply U. lia.
  Qed.
  Lemma until_dot_app : forall a b, ~ In "."%char a -> until_dot (a ++ "."%char :: b) = a.
  Proof. induction a as [|c a IH]; intros b N; [reflexivity|]. cbn [app until_dot]. destruct (Ascii.eqb c ".") eqn:E; [apply Ascii.eqb_eq in E; subst; exfalso; apply N; now left|]. f_equal. apply IH. intros X. apply N. now right. Qed.
End File.
