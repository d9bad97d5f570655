From Coq Require Import Ascii String List Arith ZArith Bool Lia.
Import ListNotations.
Require Import Verif.IP_Model Verif.IP_Spec Verif.IP_Proofs Verif.IP_Check Verif.MN_Model Verif.MN_Spec.
Open Scope list_scope. Open Scope nat_scope.

Lemma teqb_iff a b : teqb a b = true <-> a = b.
Proof. unfold teqb. destruct (list_eq_dec _ a b); split; intros; auto; discriminate. Qed.
Lemma teqb_false a b : teqb a b = false <-> a <> b.
Proof. unfold teqb. destruct (list_eq_dec _ a b); split; intros; auto; [discriminate|contradiction]. Qed.
Lemma has_brace_iff k : has_brace k = true <-> braced k.
Proof.
  unfold has_brace, braced. rewrite existsb_exists. split.
  - intros [c [I H]]. apply orb_true_iff in H. destruct H as [H|H]; apply Ascii.eqb_eq in H; subst; auto.
  - intros [H|H]; eexists; (split; [exact H|]); reflexivity.
Qed.
Lemma dget_some {V} k (d : list (text * V)) : In k (map fst d) <-> exists v, dget k d = Some v.
Proof.
  unfold dget. split.
  - intros H. destruct (find (fun x => teqb k (fst x)) d) as [x|] eqn:E; [eexists; reflexivity|]. exfalso. apply in_map_iff in H. destruct H as [x [A B]].
    pose proof (find_none _ _ E x B) as N. cbn in N. assert (teqb k (fst x) = true) by (apply teqb_iff; auto). congruence.
  - intros [v H]. destruct (find (fun x => teqb k (fst x)) d) as [x|] eqn:E; [|discriminate]. apply find_some in E. destruct E as [A B]. apply teqb_iff in B. subst k. apply in_map. exact A.
Qed.
Lemma dget_cons {V} k k' (v : V) d : dget k ((k', v) :: d) = if teqb k k' then Some v else dget k d.
Proof. unfold dget. cbn. destruct (teqb k k'); reflexivity. Qed.

Section S.
  Variable isspace : ascii -> bool.
  Context {D F : Type}.
  Variable to_float : text -> option F.
  Variable trunc : F -> option Z.
  Variable dict_text : D -> text.
  Variable cpu_count : Z.
  Variable default : text -> text -> option (@val D F).
  Variable exists_path : text -> bool.
  Notation items := (tune_items isspace to_float trunc dict_text).
  Notation tcheck := (tune_check isspace to_float trunc dict_text exists_path).

  Lemma tune_distinct : NoDup (map fst tune_table).
  Proof. apply (@distinct_ok). vm_compute. reflexivity. Qed.
  Lemma tune_in k n kd : In (k, (n, kd)) tune_table <-> dget k tune_table = Some (n, kd).
  Proof. split; [apply in_get, tune_distinct|apply find_in]. Qed.
  Lemma convert_reads kd v x : kd <> KBool -> (tune_convert isspace to_float trunc dict_text kd v = Some x <-> reads_as isspace to_float trunc dict_text kd v x).
  Proof. intros N. rewrite <- convert_iff. destruct kd; try contradiction; destruct v; reflexivity. Qed.
  Lemma items_iff d p : items d = Some p <-> tune_block isspace to_float trunc dict_text d p.
  Proof.
    revert p. induction d as [|[k v] d IH]; intros p; cbn [tune_items].
    - split; [intros H; injection H as <-; constructor|intros H; inversion H; reflexivity].
    - assert (G : forall x, (if has_brace k then Some (Hole v) else match dget k tune_table with None => None | Some (_, kd) => option_map Val (tune_convert isspace to_float trunc dict_text kd v) end) = Some x <-> tune_reads isspace to_float trunc dict_text k v x).
      { intros x. destruct (has_brace k) eqn:B.
        - apply has_brace_iff in B. split; [intros H; injection H as <-; constructor; exact B|]. intros H. inversion H; subst; try contradiction. reflexivity.
        - assert (NB : ~ braced k) by (rewrite <- has_brace_iff, B; discriminate). destruct (dget k tune_table) as [[n kd]|] eqn:E.
          + apply tune_in in E. split.
            * intros H. destruct (tune_convert isspace to_float trunc dict_text kd v) as [y|] eqn:C; [|discriminate]. injection H as <-. destruct kd;
                try (apply (reads_val _ _ _ _ k n _ v y NB E); [discriminate|]; apply convert_reads; [discriminate|exact C]).
              destruct v as [s|dd]; cbn in C; injection C as <-; apply (reads_flag _ _ _ _ k n _ _ NB E).
              { rewrite negb_false_iff, teqb_iff. split; [intros ->; reflexivity|intros X; injection X; auto]. } { split; discriminate. }
            * intros H. inversion H as [? ? Hb|? n' ? b Hn Ht Hb|? n' kd' ? y Hn Ht Hk Hr]; subst; [contradiction| |].
              { apply tune_in in E, Ht. rewrite E in Ht. injection Ht as -> ->. destruct v as [s|dd]; cbn.
                - f_equal. f_equal. destruct (teqb s []) eqn:Q; cbn.
                  + apply teqb_iff in Q. subst s. f_equal. symmetry. apply Hb. reflexivity.
                  + f_equal. destruct b; [reflexivity|]. exfalso. assert (X : @Raw D s = Raw []) by (apply Hb; reflexivity). injection X as ->. rewrite (proj2 (teqb_iff [] []) eq_refl) in Q. discriminate.
                - destruct b; [reflexivity|]. assert (X : Data dd = Raw []) by (apply Hb; reflexivity). discriminate. }
              { apply tune_in in E, Ht. rewrite E in Ht. injection Ht as -> ->. apply convert_reads in Hr; [|exact Hk]. rewrite Hr. reflexivity. }
          + split; [discriminate|]. intros H. inversion H as [? ? Hb|? n' ? b Hn Ht Hb|? n' kd' ? y Hn Ht Hk Hr]; subst; [contradiction| |]; apply tune_in in Ht; congruence. }
      split.
      + intros H. match type of H with match ?a with _ => _ end = _ => destruct a as [x|] eqn:A end; [|discriminate]. destruct (items d) as [u|] eqn:U; [|discriminate]. injection H as <-.
        constructor; [cbn; split; [reflexivity|apply G; reflexivity]|apply IH; reflexivity].
      + intros H. inversion H as [|? y ? u [H1 H2] H3]; subst. destruct y as [k' x]. cbn in H1, H2. subst k'. apply G in H2. rewrite H2. apply IH in H3. rewrite H3. reflexivity.
  Qed.
  Lemma block_names' d p : tune_block isspace to_float trunc dict_text d p -> map fst p = map fst d.
  Proof. induction 1 as [|x y d p [A _] _ IH]; [reflexivity|]. cbn. rewrite A, IH. reflexivity. Qed.
  (** Accepted cards. *)
  Theorem tune_accepts d p : tcheck d = Some p <->
    tune_block isspace to_float trunc dict_text d p /\ In (t "method") (map fst d) /\ forall l, dget (t "extfiles") p = Some (Val (VStrs l)) -> forall f, In f l -> exists_path f = true.
  Proof.
    unfold tune_check. assert (R : forall q : list (text * @item D F), required_ok q = true <-> In (t "method") (map fst q)).
    { intros q. unfold required_ok. rewrite <- (has_In). split.
      - intros H. rewrite forallb_forall in H. specialize (H (t "method", (Req, KStr)) ltac:(vm_compute; tauto)). apply orb_true_iff in H. destruct H as [H|H]; [exact H|discriminate].
      - intros H. apply forallb_forall. intros x I. vm_compute in I. repeat (destruct I as [<-|I]; [apply orb_true_iff; first [right; reflexivity | left; exact H]|]). destruct I. }
    assert (X : forall q, files_ok exists_path q = true <-> forall l, dget (t "extfiles") q = Some (@Val D F (VStrs l)) -> forall f, In f l -> exists_path f = true).
    { intros q. unfold files_ok. destruct (dget (t "extfiles") q) as [[v|[| | | |l| |]]|]; try (split; [intros _ l' L; discriminate|reflexivity]).
      rewrite forallb_forall. split; [intros H l' L; injection L as <-; exact H|intros H; apply H; reflexivity]. }
    split.
    - intros H. destruct (items d) as [q|] eqn:E; [|discriminate]. destruct (required_ok q && files_ok exists_path q) eqn:B; [|discriminate]. injection H as <-.
      apply andb_true_iff in B. destruct B as [B1 B2]. apply items_iff in E. split; [exact E|]. rewrite <- (block_names' _ _ E). split; [apply R; exact B1|apply X; exact B2].
    - intros [H1 [H2 H3]]. rewrite <- (block_names' _ _ H1) in H2. pose proof H1 as E. apply items_iff in E. rewrite E.
      assert (B : required_ok p && files_ok exists_path p = true) by (apply andb_true_iff; split; [apply R; exact H2|apply X; exact H3]). rewrite B. reflexivity.
  Qed.
  (** The values. *)
  Lemma dget_item d p k : tune_block isspace to_float trunc dict_text d p -> match dget k d, dget k p with Some v, Some x => tune_reads isspace to_float trunc dict_text k v x | None, None => True | _, _ => False end.
  Proof.
    induction 1 as [|[k1 v] [k2 x] d p [A B] _ IH]; [exact I|]. cbn in A. subst k2. cbn [fst snd] in B. rewrite !dget_cons. destruct (teqb k k1) eqn:E; [|exact IH].
    apply teqb_iff in E. subst k1. exact B.
  Qed.
  Theorem tune_values d p n : tcheck d = Some p -> n <> t "flag" ->
    match dget n d with
    | Some v => exists x, tune_final default p n = Some x /\ tune_reads isspace to_float trunc dict_text n v x
    | None => tune_final default p n = option_map Val (default (t "TUNE") n)
    end.
  Proof.
    intros H N. apply tune_accepts in H. destruct H as [H _]. pose proof (dget_item d p n H) as G. unfold tune_final. apply teqb_false in N. rewrite N.
    destruct (dget n d) as [v|], (dget n p) as [x|]; try contradiction; [exists x; split; [reflexivity|exact G]|reflexivity].
  Qed.
  Theorem tune_flag (p : list (text * @item D F)) : tune_final default p (t "flag") = Some (Val (VBool true)).
  Proof. reflexivity. Qed.

  (** ** Flags *)
  Notation setup' := (setup isspace to_float trunc dict_text cpu_count default).
  Lemma convert_get tab d p k : convert_all isspace to_float trunc dict_text tab d = Some p ->
    match dget k d with None => dget k p = None | Some v => exists n kd x, dget k tab = Some (n, kd) /\ convert isspace to_float trunc dict_text kd v = Some x /\ dget k p = Some x end.
  Proof.
    revert p. induction d as [|[k' v] d IH]; intros p H; cbn [convert_all] in H; [injection H as <-; reflexivity|].
    destruct (dget k' tab) as [[n kd]|] eqn:T; [|discriminate]. destruct (convert isspace to_float trunc dict_text kd v) as [x|] eqn:C; [|discriminate].
    destruct (convert_all isspace to_float trunc dict_text tab d) as [u|]; [|discriminate]. injection H as <-. rewrite !dget_cons. destruct (teqb k k') eqn:E; [|apply IH; reflexivity].
    apply teqb_iff in E. subst k'. exists n, kd, x. auto.
  Qed.
  Lemma check_get l a c : check_all isspace to_float trunc dict_text l = Some a ->
    match dget c l with None => dget c a = None | Some d => exists p, check_input isspace to_float trunc dict_text c d = Some p /\ dget c a = Some p end.
  Proof.
    revert a. induction l as [|[k d] l IH]; intros a H; cbn [check_all] in H; [injection H as <-; reflexivity|].
    destruct (check_input isspace to_float trunc dict_text k d) as [p|] eqn:C; [|discriminate]. destruct (check_all isspace to_float trunc dict_text l) as [u|]; [|discriminate].
    injection H as <-. rewrite !dget_cons. destruct (teqb c k) eqn:E; [|apply IH; reflexivity]. apply teqb_iff in E. subst k. exists p. auto.
  Qed.
  Lemma check_names l a : check_all isspace to_float trunc dict_text l = Some a -> map fst a = map fst l.
  Proof.
    revert a. induction l as [|[k d] l IH]; intros a H; cbn [check_all] in H; [injection H as <-; reflexivity|].
    destruct (check_input isspace to_float trunc dict_text k d); [|discriminate]. destruct (check_all isspace to_float trunc dict_text l) as [u|]; [|discriminate]. injection H as <-. cbn. rewrite (IH u); reflexivity.
  Qed.
  Lemma setup_parts g algs g' a : setup' g algs = Some (g', a) -> check_input isspace to_float trunc dict_text (t "GENERAL") g = Some g' /\ check_all isspace to_float trunc dict_text algs = Some a.
  Proof.
    unfold setup. destruct (check_input _ _ _ _ (t "GENERAL") g) as [x|]; [|discriminate]. destruct (check_all _ _ _ _ algs) as [y|]; [|discriminate].
    destruct (cores default y); [|discriminate]. destruct (limit cpu_count x); [destruct (_ <=? _)%Z|]; intros H; try discriminate; injection H as -> ->; auto.
  Qed.
  Lemma flag_table c : In c algorithms -> exists n, dget (t "flag") (table c) = Some (n, KBool).
  Proof. intros H. vm_compute in H. repeat (destruct H as [<-|H]; [eexists; vm_compute; reflexivity|]). destruct H. Qed.
  Lemma alg_not_general c : In c algorithms -> teqb c (t "GENERAL") = false.
  Proof. intros H. vm_compute in H. repeat (destruct H as [<-|H]; [vm_compute; reflexivity|]). destruct H. Qed.
  Theorem flagged_iff g algs g' a c : setup' g algs = Some (g', a) -> In c algorithms ->
    (flagged default a c = true <-> exists d, dget c algs = Some d /\ dget (t "flag") d <> Some (Raw (t "False"))).
  Proof.
    intros H I. apply setup_parts in H. destruct H as [_ H]. pose proof (check_get algs a c H) as G. unfold flagged.
    destruct (dget c algs) as [d|].
    - destruct G as [p [P Q]]. rewrite Q. unfold check_input in P. destruct (convert_all _ _ _ _ (table c) d) as [q|] eqn:C; [|discriminate].
      destruct (forallb _ _ && _); [|discriminate]. rewrite (alg_not_general c I) in P. cbn [andb] in P. injection P as <-.
      pose proof (convert_get _ _ _ (t "flag") C) as K. unfold final. rewrite (alg_not_general c I). destruct (dget (t "flag") d) as [v|] eqn:V.
      + destruct K as [n [kd [x [K1 [K2 K3]]]]]. destruct (flag_table c I) as [n' T]. rewrite T in K1. injection K1 as <- <-. rewrite K3.
        destruct v as [s|dd]; [|discriminate]. cbn [convert] in K2. destruct (teqb s (t "True")) eqn:E1; [injection K2 as <-|destruct (teqb s (t "False")) eqn:E2; [injection K2 as <-|discriminate]].
        * apply teqb_iff in E1. subst s. split; [|reflexivity]. intros _. exists d. split; [reflexivity|]. rewrite V. discriminate.
        * apply teqb_iff in E2. subst s. split; [discriminate|]. intros [d' [A B]]. injection A as <-. rewrite V in B. contradiction.
      + rewrite K. rewrite (proj2 (teqb_iff (t "flag") (t "flag")) eq_refl). cbn [andb negb]. split; [|reflexivity]. intros _. exists d. split; [reflexivity|]. rewrite V. discriminate.
    - rewrite G. split; [discriminate|]. intros [d [A _]]. discriminate.
  Qed.

  (** ** main *)
  Variable succeeds : act -> bool.
  Notation main' := (main isspace to_float trunc dict_text cpu_count default exists_path succeeds).
  Notation plain := (plain_main isspace to_float trunc dict_text cpu_count default succeeds).
  Notation tune := (tune_main isspace to_float trunc dict_text default exists_path succeeds).
  Theorem no_input o files : o_input o = None -> forall x, In x (fst (main' o files)) -> ~ touches x.
  Proof.
    intros H x. unfold main. destruct (o_example o); [cbn; intros [<-|[]] []|]. destruct (o_test o); [cbn; intros [<-|[]] []|]. rewrite H. cbn. intros [<-|[]] [].
  Qed.
  Theorem check_option i c c' ts e files : main' (Options i c ts e) files = main' (Options i c' ts e) files.
  Proof. reflexivity. Qed.
  Theorem options_first o files : (o_example o = true -> main' o files = ([ShowExample], Leaves)) /\ (o_example o = false -> o_test o = true -> main' o files = ([Tests], Leaves)).
  Proof. unfold main. split; [intros ->; reflexivity|intros -> ->; reflexivity]. Qed.
  Lemma started_starts l : started (map Start l) = l.
  Proof. induction l as [|x l IH]; [reflexivity|]. cbn. f_equal. exact IH. Qed.
  (** The regular branch, in full. *)
  Notation neorl_mode := (neorl_mode default).
  Theorem plain_started g algs g' a : setup' g algs = Some (g', a) ->
    started (fst (plain g algs)) = if succeeds (LogFiles (map fst algs)) && teqb (neorl_mode g') (t "run") then filter (flagged default a) algorithms else [].
  Proof.
    intros H. pose proof (setup_parts _ _ _ _ H) as [_ C]. unfold plain_main. rewrite H. rewrite (check_names _ _ C). unfold andthen. change (match final default (t "GENERAL") g' (t "neorl_mode") with Some (VStr s) => s | _ => [] end) with (neorl_mode g').
    destruct (succeeds (LogFiles (map fst algs))); [|reflexivity]. cbn [andb fst]. destruct (teqb (neorl_mode g') (t "run")); [cbn; apply started_starts|].
    destruct (teqb (neorl_mode g') (t "test")); [reflexivity|]. destruct (teqb (neorl_mode g') (t "env_only")); [|reflexivity]. destruct (succeeds OpenEnv); reflexivity.
  Qed.
  Theorem plain_refused g algs : setup' g algs = None -> plain g algs = ([], Raises).
  Proof. intros H. unfold plain_main. rewrite H. reflexivity. Qed.
  (** The order of events: log files come first. *)
  Theorem logs_first g algs g' a : setup' g algs = Some (g', a) -> exists rest, fst (plain g algs) = LogFiles (map fst algs) :: rest.
  Proof. intros H. pose proof (setup_parts _ _ _ _ H) as [_ C]. unfold plain_main. rewrite H, (check_names _ _ C). unfold andthen. destruct (succeeds _); eexists; reflexivity. Qed.
  Theorem plain_mode g algs g' a : setup' g algs = Some (g', a) -> succeeds (LogFiles (map fst algs)) = true ->
    ~ In (neorl_mode g') (map t ["run"; "test"; "env_only"]%string) -> plain g algs = ([LogFiles (map fst algs)], Raises).
  Proof.
    intros H S N. pose proof (setup_parts _ _ _ _ H) as [_ C]. unfold plain_main. rewrite H, (check_names _ _ C). unfold andthen. rewrite S. change (match final default (t "GENERAL") g' (t "neorl_mode") with Some (VStr s) => s | _ => [] end) with (neorl_mode g'). cbn in N.
    destruct (teqb (neorl_mode g') (t "run")) eqn:E; [apply teqb_iff in E; exfalso; auto|]. destruct (teqb (neorl_mode g') (t "test")) eqn:E2; [apply teqb_iff in E2; exfalso; auto|].
    destruct (teqb (neorl_mode g') (t "env_only")) eqn:E3; [apply teqb_iff in E3; exfalso; auto 6|]. reflexivity.
  Qed.
  Theorem plain_test g algs g' a : setup' g algs = Some (g', a) -> succeeds (LogFiles (map fst algs)) = true -> neorl_mode g' = t "test" -> plain g algs = ([LogFiles (map fst algs)], Ends).
  Proof.
    intros H S N. pose proof (setup_parts _ _ _ _ H) as [_ C]. unfold plain_main. rewrite H, (check_names _ _ C). unfold andthen. rewrite S. change (match final default (t "GENERAL") g' (t "neorl_mode") with Some (VStr s) => s | _ => [] end) with (neorl_mode g'). rewrite N. reflexivity.
  Qed.
  Theorem main_plain o path c files g algs : o_example o = false -> o_test o = false -> o_input o = Some (c :: path) -> files (c :: path) = Some (g, None, algs) ->
    main' o files = (ReadFile (c :: path) :: fst (plain g algs), snd (plain g algs)).
  Proof. intros A B C E. unfold main. rewrite A, B, C, E. reflexivity. Qed.
  Theorem main_tune o path c files g u algs : o_example o = false -> o_test o = false -> o_input o = Some (c :: path) -> files (c :: path) = Some (g, Some u, algs) ->
    main' o files = (ReadFile (c :: path) :: fst (tune u), snd (tune u)).
  Proof. intros A B C E. unfold main. rewrite A, B, C, E. reflexivity. Qed.

  (** ** The tuning branch, in full *)
  Theorem tune_outcome u p : tcheck u = Some p -> succeeds RunCases = true ->
    let m := text_of (tune_final default p (t "method")) in let md := text_of (tune_final default p (t "mode")) in
    (In m methods -> succeeds (Generate m) = true -> tune_final default p (t "mode") <> None ->
       (md = t "run" -> tune u = ([Generate m; RunCases], Ends)) /\ (md = t "test" -> tune u = ([Generate m], Ends)) /\
       (md <> t "run" -> md <> t "test" -> tune u = ([Generate m], Raises))) /\
    (~ In m methods -> tune u = ([], Raises)).
  Proof.
    intros H S m md. unfold tune_main. rewrite H. fold m. fold md. unfold mem. destruct (existsb (teqb m) methods) eqn:E.
    - split; [|intros N; exfalso; apply N; apply existsb_exists in E; destruct E as [y [A B]]; apply teqb_iff in B; rewrite B; exact A].
      intros _ G Q. unfold andthen. rewrite G, S. cbn [negb]. destruct (tune_final default p (t "mode")) as [it|] eqn:T; [|contradiction].
      split; [intros ->; reflexivity|]. split; [intros ->; reflexivity|]. intros A B. apply teqb_false in A, B. rewrite A, B. reflexivity.
    - cbn [negb]. split; [|reflexivity]. intros I. exfalso. assert (existsb (teqb m) methods = true) by (apply existsb_exists; exists m; split; [exact I|apply teqb_iff; reflexivity]). congruence.
  Qed.
  Theorem tune_alone o path c files files' g u algs g2 algs2 : o_input o = Some (c :: path) -> files (c :: path) = Some (g, Some u, algs) -> files' (c :: path) = Some (g2, Some u, algs2) ->
    main' o files = main' o files'.
  Proof. intros A B C. unfold main. rewrite A, B, C. reflexivity. Qed.
  Theorem starts g algs g' a o path c files : o_example o = false -> o_test o = false -> o_input o = Some (c :: path) -> files (c :: path) = Some (g, None, algs) -> setup' g algs = Some (g', a) ->
    started (fst (main' o files)) = if succeeds (LogFiles (map fst algs)) && teqb (neorl_mode g') (t "run") then filter (switched_on algs) algorithms else [].
  Proof.
    intros A B C E H. rewrite (main_plain o path c files g algs A B C E). cbn [fst started flat_map app]. change (flat_map _ ?l) with (started l). fold (started (fst (plain g algs))). rewrite (plain_started g algs g' a H).
    destruct (succeeds _ && _); [|reflexivity]. apply filter_ext_in. intros x I. pose proof (flagged_iff g algs g' a x H I) as G.
    destruct (flagged default a x), (switched_on algs x) eqn:S; try reflexivity.
    - destruct (proj1 G eq_refl) as [d [P Q]]. unfold switched_on in S. rewrite P in S. destruct (dget (t "flag") d) as [[s|]|]; try discriminate. apply negb_false_iff, teqb_iff in S. subst s. contradiction.
    - apply G. unfold switched_on in S. destruct (dget x algs) as [d|]; [|discriminate]. exists d. split; [reflexivity|]. intros Q. rewrite Q in S. apply negb_true_iff, teqb_false in S. contradiction.
  Qed.
  Theorem off_but_logged g algs g' a o path c files card d : o_example o = false -> o_test o = false -> o_input o = Some (c :: path) -> files (c :: path) = Some (g, None, algs) -> setup' g algs = Some (g', a) ->
    dget card algs = Some d -> dget (t "flag") d = Some (Raw (t "False")) ->
    ~ In card (started (fst (main' o files))) /\ exists cards rest, fst (main' o files) = ReadFile (c :: path) :: LogFiles cards :: rest /\ In card cards.
  Proof.
    intros A B C E H K L. split.
    - rewrite (starts g algs g' a o path c files A B C E H). destruct (succeeds _ && _); [|intros []]. rewrite filter_In. intros [_ X]. unfold switched_on in X. rewrite K, L in X. discriminate.
    - rewrite (main_plain o path c files g algs A B C E). destruct (logs_first g algs g' a H) as [rest R]. exists (map fst algs), rest. cbn [fst]. rewrite R. split; [reflexivity|]. apply dget_some. eauto.
  Qed.
End S.
