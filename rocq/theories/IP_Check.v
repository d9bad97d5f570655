(** Proofs about the checks of the parameters. *)
From Coq Require Import Ascii String List Arith ZArith Bool Lia.
From Verif Require Import IP_Model IP_Spec IP_Proofs.
Import ListNotations.
Open Scope list_scope.

Section Check.
  Variable isspace : ascii -> bool.
  Context {D F : Type}.
  Variable to_float : text -> option F.
  Variable trunc : F -> option Z.
  Variable dict_text : D -> text.
  Notation convert := (convert isspace to_float trunc dict_text). Notation convert_all := (convert_all isspace to_float trunc dict_text). Notation check_input := (check_input isspace to_float trunc dict_text).
  Notation reads_as := (reads_as isspace to_float trunc dict_text). Notation block_reads := (block_reads isspace to_float trunc dict_text).
  Lemma floats_iff : forall s l, floats isspace to_float s = Some l <-> Forall2 (fun x f => to_float (strip isspace x) = Some f) s l.
  Proof.
    induction s as [|x s IH]; intros l; cbn [floats].
    - split; [intros H; injection H as <-; constructor|intros H; inversion H; reflexivity].
    - split.
      + destruct (to_float (strip isspace x)) eqn:A; [|discriminate]. destruct (floats isspace to_float s) eqn:B; [|discriminate]. intros H. injection H as <-. constructor; [exact A|now apply IH].
      + intros H. inversion H as [|? ? ? ? A B]; subst. rewrite A. apply IH in B. now rewrite B.
  Qed.
  Lemma convert_iff : forall k v x, convert k v = Some x <-> reads_as k v x.
  Proof.
    intros k v x. split.
    - destruct k, v; cbn [IP_Model.convert]; intros H; try discriminate; try (injection H as <-; constructor).
      + destruct (to_float s) eqn:E; [|discriminate]. destruct (trunc f) eqn:G; [|discriminate]. injection H as <-. now apply (as_int isspace to_float trunc dict_text s f z).
      + destruct (to_float s) eqn:E; [|discriminate]. injection H as <-. now constructor.
      + destruct (teqb s (t "True")) eqn:E; [apply teqb_iff in E; subst; injection H as <-; constructor|]. destruct (teqb s (t "False")) eqn:G; [apply teqb_iff in G; subst; injection H as <-; constructor|discriminate].
      + destruct (floats isspace to_float (split "," s)) eqn:E; [|discriminate]. injection H as <-. constructor. now apply floats_iff.
    - intros R. destruct R as [s|d|s f z A B|s f A|  |  |s|s l A|s|d]; cbn [IP_Model.convert]; try reflexivity.
      + now rewrite A, B. + now rewrite A.
      + apply floats_iff in A. now rewrite A.
  Qed.
  Lemma find_in : forall {V} k (d : list (text * V)) v, dget k d = Some v -> In (k, v) d.
  Proof. intros V k d v. unfold dget. induction d as [|[k0 v0] d IH]; cbn [find fst]; [discriminate|]. destruct (teqb k k0) eqn:E; intros H; [apply teqb_iff in E; subst; injection H as <-; now left|right; now apply IH]. Qed.
  Lemma in_get : forall {V} (d : list (text * V)) k v, NoDup (map fst d) -> In (k, v) d -> dget k d = Some v.
  Proof.
    intros V. unfold dget. induction d as [|[k0 v0] d IH]; intros k v N I; [destruct I|]. cbn [map fst] in N. inversion N as [|? ? Nk Nd]; subst. cbn [find fst]. destruct I as [I|I].
    - injection I as -> ->. now rewrite teqb_refl.
    - rewrite teqb_neq; [now apply IH|]. intros ->. apply Nk. change k0 with (fst (k0, v)). now apply in_map.
  Qed.
  Fixpoint distinct (l : list text) : bool := match l with [] => true | x :: r => negb (mem x r) && distinct r end.
  Lemma distinct_ok : forall l, distinct l = true -> NoDup l.
  Proof. induction l as [|x l IH]; intros H; constructor; cbn in H; apply andb_true_iff in H; destruct H as [A B]; [apply mem_false; now apply negb_true_iff in A|now apply IH]. Qed.
  Lemma table_distinct : forall card, NoDup (map fst (table card)).
  Proof. intros card. unfold table. repeat (match goal with |- context [if ?b then _ else _] => destruct b end; [apply distinct_ok; vm_compute; reflexivity|]). constructor. Qed.
  Lemma convert_all_iff : forall card d p, convert_all (table card) d = Some p <-> block_reads card d p.
  Proof.
    intros card. induction d as [|[k v] d IH]; intros p; cbn [IP_Model.convert_all].
    - split; [intros H; injection H as <-; constructor|intros H; inversion H; reflexivity].
    - split.
      + destruct (dget k (table card)) as [[n kd]|] eqn:G; [|discriminate]. destruct (convert kd v) as [x|] eqn:C; [|discriminate]. destruct (convert_all (table card) d) as [u|] eqn:E; [|discriminate]. intros H. injection H as <-. constructor; [|now apply IH].
        cbn [fst snd]. split; [reflexivity|]. exists n, kd. split; [now apply find_in|now apply convert_iff].
      + intros H. inversion H as [|? y ? p' (E & n & kd & I & R) B]; subst. cbn [fst snd] in *. apply in_get in I; [|apply table_distinct]. rewrite I. apply convert_iff in R. rewrite R. apply IH in B. rewrite B. destruct y as [y1 y2]. cbn in *. now subst.
  Qed.
  Lemma block_names : forall card d p, block_reads card d p -> map fst p = map fst d.
  Proof. intros card d p H. induction H as [|x y d p (E & _) B IH]; [reflexivity|]. cbn. now rewrite E, IH. Qed.
  Lemma has_In : forall {V} k (d : list (text * V)), has k d = true <-> In k (map fst d). Proof. intros. apply mem_iff. Qed.

  (** *** The second loop *)
  Lemma mode_first_none : forall (p : list (text * @val D F)) l, Forall (fun x => (2 <= List.length x)%nat) l -> mode_first p l = match dget (t "mode") p with Some (VStr (_ :: _)) => Some false | _ => None end.
  Proof.
    intros p l H. unfold mode_first. destruct (dget (t "mode") p) as [[s|z|f|b|ls|lv|dd]|]; try reflexivity. destruct s as [|c s]; [reflexivity|]. f_equal. apply mem_false. intros I. rewrite Forall_forall in H. specialize (H _ I). cbn in H. lia.
  Qed.
  Definition mode_text (p : list (text * @val D F)) : option text := match dget (t "mode") p with Some (VStr s) => Some s | _ => None end.
  Lemma special_free : forall card, ~ In card rl_cards -> forall n k, In (n, (Special, k)) (table card) -> n <> t "model_load_path" /\ n <> t "time_steps".
  Proof.
    intros card N n k I. unfold table in I. destruct (teqb card (t "GENERAL")) eqn:E0; [cbn in I; intuition discriminate|].
    destruct (teqb card (t "DQN")) eqn:E1; [apply teqb_iff in E1; exfalso; apply N; left; now subst|].
    destruct (teqb card (t "PPO")) eqn:E2; [apply teqb_iff in E2; exfalso; apply N; right; left; now subst|].
    destruct (teqb card (t "A2C")) eqn:E3; [apply teqb_iff in E3; exfalso; apply N; right; right; left; now subst|].
    destruct (teqb card (t "ACER")) eqn:E4; [apply teqb_iff in E4; exfalso; apply N; right; right; right; left; now subst|].
    destruct (teqb card (t "GA")) eqn:E5; [cbn in I; intuition discriminate|].
    destruct (teqb card (t "SA")) eqn:E6; [|destruct I]. unfold sa_table in I. repeat (destruct I as [I|I]; [try discriminate I; injection I as <- _; split; discriminate|]). destruct I.
  Qed.
  Lemma specials : forall card, In card rl_cards -> (exists k, In (t "model_load_path", (Special, k)) (table card)) /\ (exists k, In (t "time_steps", (Special, k)) (table card)) /\ In (t "mode", (Req, KStr)) (table card).
  Proof.
    intros card I. assert (H : forall c, In c rl_cards -> existsb (fun x => teqb (fst x) (t "model_load_path") && match snd x with (Special, KStr) => true | _ => false end) (table c) && existsb (fun x => teqb (fst x) (t "time_steps") && match snd x with (Special, KInt) => true | _ => false end) (table c) && existsb (fun x => teqb (fst x) (t "mode") && match snd x with (Req, KStr) => true | _ => false end) (table c) = true).
    { intros c Hc. cbn in Hc. destruct Hc as [<-|[<-|[<-|[<-|[]]]]]; vm_compute; reflexivity. }
    specialize (H card I). apply andb_true_iff in H. destruct H as [H H3]. apply andb_true_iff in H. destruct H as [H1 H2]. apply existsb_exists in H1, H2, H3.
    destruct H1 as ([n1 [a1 k1]] & I1 & E1), H2 as ([n2 [a2 k2]] & I2 & E2), H3 as ([n3 [a3 k3]] & I3 & E3). cbn [fst snd] in *. apply andb_true_iff in E1, E2, E3. destruct E1 as [E1 F1], E2 as [E2 F2], E3 as [E3 F3]. apply teqb_iff in E1, E2, E3. subst.
    destruct a1; try discriminate. destruct a2; try discriminate. destruct a3; try discriminate. destruct k1; try discriminate. destruct k2; try discriminate. destruct k3; try discriminate. split; [now exists KStr|]. split; [now exists KInt|exact I3].
  Qed.
  Lemma rows_free : forall card (p : list (text * @val D F)), ~ In card rl_cards -> (forallb (row_ok p) (table card) = true <-> complete card (map fst p)).
  Proof.
    intros card p N. rewrite forallb_forall. unfold complete. split.
    - intros H n k I. specialize (H _ I). unfold row_ok in H. cbn [fst snd] in H. rewrite orb_false_r in H. now apply has_In.
    - intros H [n [a k]] I. unfold row_ok. cbn [fst snd]. apply orb_true_iff. destruct a; [left; apply has_In; now apply (H n k)|now right|right]. destruct (special_free card N n k I) as [A B]. now rewrite !teqb_neq.
  Qed.
  Lemma rows_rl : forall card p m, In card rl_cards -> mode_text p = Some m ->
    (forallb (row_ok p) (table card) = true <-> complete card (map fst p) /\ (m <> [] \/ In (t "model_load_path") (map fst p) /\ In (t "time_steps") (map fst p))).
  Proof.
    intros card p m I M. unfold mode_text in M. destruct (specials card I) as ((k1 & S1) & (k2 & S2) & _). rewrite forallb_forall.
    assert (Fr : forall n k, row_ok p (n, (Special, k)) = has n p || (if teqb n (t "model_load_path") || teqb n (t "time_steps") then match m with [] => false | _ => true end else true)).
    { intros n k. unfold row_ok. cbn [fst snd]. f_equal. rewrite !mode_first_none by (repeat constructor; cbn; lia). destruct (dget (t "mode") p) as [[s|z|f|b|ls|lv|dd]|]; try discriminate. injection M as ->. destruct (teqb n (t "model_load_path")), (teqb n (t "time_steps")), m; reflexivity. }
    split.
    - intros H. split.
      + intros n k J. specialize (H _ J). unfold row_ok in H. cbn [fst snd] in H. rewrite orb_false_r in H. now apply has_In.
      + destruct m as [|c m]; [right|now left]. pose proof (H _ S1) as H1. pose proof (H _ S2) as H2. rewrite Fr in H1, H2. rewrite teqb_refl in H1, H2. rewrite orb_true_r in H2. cbn [orb] in H1. rewrite orb_false_r in H1, H2. now rewrite !has_In in *.
    - intros [C Md] [n [a k]] J. destruct a.
      + unfold row_ok. cbn [fst snd]. rewrite orb_false_r. apply has_In. now apply (C n k).
      + unfold row_ok. cbn [fst snd]. now rewrite orb_true_r.
      + rewrite Fr. apply orb_true_iff. destruct (teqb n (t "model_load_path")) eqn:E1; cbn [orb].
        * apply teqb_iff in E1. subst n. destruct Md as [Md|[A B]]; [right; destruct m; [contradiction|reflexivity]|left; now apply has_In].
        * destruct (teqb n (t "time_steps")) eqn:E2; [|now right]. apply teqb_iff in E2. subst n. destruct Md as [Md|[A B]]; [right; destruct m; [contradiction|reflexivity]|left; now apply has_In].
  Qed.
  Lemma none_iff : forall (p : list (text * @val D F)) l, negb (existsb (fun n => has n p) (map t l)) = true <-> forall n, In n (map t l) -> ~ In n (map fst p).
  Proof.
    intros p l. rewrite negb_true_iff. split.
    - intros H n I X. assert (existsb (fun n => has n p) (map t l) = true); [|congruence]. apply existsb_exists. exists n. split; [exact I|now apply has_In].
    - intros H. destruct (existsb _ _) eqn:E; [|reflexivity]. apply existsb_exists in E. destruct E as (n & I & X). apply has_In in X. now elim (H n I).
  Qed.
  Lemma mode_ok_iff : forall p m, mode_text p = Some m -> (mode_ok p = true <->
    (m = t "train" -> forall n, In n (map t ["model_load_path"; "n_eval_episodes"; "render"]%string) -> ~ In n (map fst p)) /\
    (m = t "continue" -> forall n, In n (map t ["n_eval_episodes"; "render"]%string) -> ~ In n (map fst p)) /\
    (m = t "test" -> forall n, In n (map fst p) -> In n (map t ["casename"; "mode"; "model_load_path"; "n_eval_episodes"; "render"]%string))).
  Proof.
    intros p m M. unfold mode_ok, mode_is. unfold mode_text in M. destruct (dget (t "mode") p) as [[s|z|f|b|ls|lv|dd]|]; try discriminate. injection M as ->. rewrite !andb_true_iff.
    assert (X : forall (w : text) (b : bool) (P : Prop), (b = true <-> P) -> ((if teqb m w then b else true) = true <-> (m = w -> P))).
    { intros w b P HP. destruct (teqb m w) eqn:E; [apply teqb_iff in E; rewrite HP; split; [now intros ? _|now intros H; apply H]|]. split; [intros _ ->; rewrite teqb_refl in E; discriminate|reflexivity]. }
    rewrite (X _ _ _ (none_iff p _)), (X _ _ _ (none_iff p _)).
    assert (Y : forallb (fun x => mem (fst x) (map t ["casename"; "mode"; "model_load_path"; "n_eval_episodes"; "render"]%string)) p = true <-> forall n, In n (map fst p) -> In n (map t ["casename"; "mode"; "model_load_path"; "n_eval_episodes"; "render"]%string)).
    { rewrite forallb_forall. split.
      - intros H n I. apply in_map_iff in I. destruct I as (x & <- & I). now apply mem_iff, H.
      - intros H x I. apply mem_iff, H. now apply in_map. }
    rewrite (X _ _ _ Y). tauto.
  Qed.
  Lemma rl_card_iff : forall card, rl_card card = true <-> In card rl_cards. Proof. intros. apply mem_iff. Qed.
  Lemma rl_not_general : forall card, In card rl_cards -> teqb card (t "GENERAL") = false. Proof. intros card H. apply teqb_neq. intros ->. cbn in H. intuition discriminate. Qed.
  Lemma block_mode : forall card d p, In card rl_cards -> NoDup (map fst d) -> block_reads card d p -> In (t "mode") (map fst p) -> exists m, mode_text p = Some m /\ In (t "mode", VStr m) p.
  Proof.
    intros card d p R Nd B I. pose proof (block_names card d p B) as Nm. rewrite <- Nm in Nd. apply in_map_iff in I. destruct I as ([k x] & E & I). cbn [fst] in E. subst k.
    assert (X : exists m, x = VStr m).
    { destruct (specials card R) as (_ & _ & Sm). clear - B I Sm. induction B as [|y z d p (E & n & kd & J & Ra) B IH]; [destruct I|]. destruct I as [->|I]; [|now apply IH]. cbn [fst snd] in *. rewrite <- E in J.
      pose proof (in_get _ _ _ (table_distinct card) J) as G1. pose proof (in_get _ _ _ (table_distinct card) Sm) as G2. rewrite G1 in G2. injection G2 as -> ->. inversion Ra; eexists; reflexivity. }
    destruct X as (m & ->). exists m. split; [|exact I]. unfold mode_text. now rewrite (in_get p (t "mode") (VStr m) Nd I).
  Qed.
  Lemma rl_accepts : forall card d p, In card rl_cards -> NoDup (map fst d) ->
    (check_input card d = Some p <-> block_reads card d p /\ complete card (map fst d) /\ exists m, In (t "mode", VStr m) p /\ mode_rules m (map fst d)).
  Proof.
    intros card d p R Nd. unfold IP_Model.check_input. rewrite (rl_not_general card R). pose proof (proj2 (rl_card_iff card) R) as Rc. rewrite Rc. cbn [negb andb orb]. destruct (convert_all (table card) d) as [q|] eqn:E.
    - apply convert_all_iff in E. pose proof (block_names card d q E) as Nm. assert (Fn : forall p', block_reads card d p' -> p' = q) by (intros p' B; apply convert_all_iff in B, E; congruence).
      assert (Nq : NoDup (map fst q)) by now rewrite Nm. split.
      + destruct (forallb (row_ok q) (table card)) eqn:A; cbn [andb]; [|discriminate]. destruct (mode_ok q) eqn:Mo; [|discriminate]. intros H. injection H as <-. split; [exact E|].
        assert (C : complete card (map fst q)). { intros n k J. rewrite forallb_forall in A. specialize (A _ J). unfold row_ok in A. cbn [fst snd] in A. rewrite orb_false_r in A. now apply has_In. }
        rewrite <- Nm. split; [exact C|]. destruct (block_mode card d q R Nd E) as (m & M & Im); [destruct (specials card R) as (_ & _ & Sm); now apply (C _ _ Sm)|]. exists m. split; [exact Im|]. apply (rows_rl card q m R M) in A. apply (mode_ok_iff q m M) in Mo. unfold mode_rules. tauto.
      + intros (B & C & m & Im & Mr). apply Fn in B. subst q. rewrite <- Nm in C, Mr. assert (M : mode_text p = Some m) by (unfold mode_text; now rewrite (in_get p (t "mode") (VStr m) Nq Im)). unfold mode_rules in Mr.
        assert (A : forallb (row_ok p) (table card) = true) by (apply (rows_rl card p m R M); tauto). rewrite A. assert (Mo : mode_ok p = true) by (apply (mode_ok_iff p m M); tauto). now rewrite Mo.
    - split; [discriminate|]. intros (B & _). apply convert_all_iff in B. congruence.
  Qed.
  Lemma other_accepts : forall card d p, ~ In card rl_cards -> card <> t "GENERAL" -> (check_input card d = Some p <-> block_reads card d p /\ complete card (map fst d)).
  Proof.
    intros card d p R G. unfold IP_Model.check_input. rewrite (teqb_neq _ _ G). assert (Rc : rl_card card = false) by (destruct (rl_card card) eqn:X; [apply rl_card_iff in X; contradiction|reflexivity]). rewrite Rc. cbn [negb andb orb]. destruct (convert_all (table card) d) as [q|] eqn:E.
    - rewrite andb_true_r. pose proof E as E'. apply convert_all_iff in E'. pose proof (block_names card d q E') as Nm. rewrite <- Nm. destruct (forallb (row_ok q) (table card)) eqn:A.
      + pose proof (proj1 (rows_free card q R) A) as C. split; [intros H; injection H as <-; tauto|]. intros [B _]. apply convert_all_iff in B. congruence.
      + split; [discriminate|]. intros [B C]. apply (rows_free card q R) in C. congruence.
    - split; [discriminate|]. intros (B & _). apply convert_all_iff in B. congruence.
  Qed.
  Lemma general_accepts : forall d p, check_input (t "GENERAL") d = Some p <->
    exists q x, block_reads (t "GENERAL") d q /\ complete (t "GENERAL") (map fst d) /\ dget (t "xsize") q = Some x /\ p = if has (t "xsize_plot") q then q else q ++ [(t "xsize_plot", x)].
  Proof.
    intros d p. unfold IP_Model.check_input. rewrite teqb_refl. change (rl_card (t "GENERAL")) with false. cbn [negb andb orb]. assert (R : ~ In (t "GENERAL") rl_cards) by (cbn; intuition discriminate).
    assert (Sx : forall (q : list (text * @val D F)) x, has (t "xsize_plot") q = false -> dset (t "xsize_plot") x q = q ++ [(t "xsize_plot", x)]).
    { intros q x. unfold has. induction q as [|[k v] q IH]; intros H; [reflexivity|]. cbn [map fst mem existsb] in H. unfold mem in H. cbn [existsb] in H. apply orb_false_iff in H. destruct H as [H1 H2]. cbn [dset app]. rewrite H1. f_equal. now apply IH. }
    destruct (convert_all (table (t "GENERAL")) d) as [q|] eqn:E.
    - rewrite andb_true_r. pose proof E as E'. apply convert_all_iff in E'. pose proof (block_names _ d q E') as Nm. rewrite <- Nm. destruct (forallb (row_ok q) (table (t "GENERAL"))) eqn:A.
      + pose proof (proj1 (rows_free _ q R) A) as C. assert (Gx : exists x, dget (t "xsize") q = Some x).
        { assert (I : In (t "xsize") (map fst q)) by (apply (C (t "xsize") KInt); cbn; tauto). clear - I. unfold dget. induction q as [|[k v] q IH]; [destruct I|]. cbn [find fst]. destruct (teqb (t "xsize") k) eqn:X; [now exists v|]. apply IH. destruct I as [I|I]; [cbn in I; subst; rewrite teqb_refl in X; discriminate|exact I]. }
        destruct Gx as (x & Gx). split.
        * intros H. exists q, x. split; [exact E'|]. split; [exact C|]. split; [exact Gx|]. destruct (has (t "xsize_plot") q) eqn:Hp; cbn [negb] in H; [now injection H|]. rewrite Gx in H. injection H as <-. now apply Sx.
        * intros (q' & x' & B & _ & G' & ->). assert (q' = q) as -> by (apply convert_all_iff in B; congruence). rewrite Gx in G'. injection G' as <-. destruct (has (t "xsize_plot") q) eqn:Hp; cbn [negb]; [reflexivity|]. rewrite Gx. now rewrite Sx.
      + split; [discriminate|]. intros (q' & x & B & C & _). assert (q' = q) as -> by (apply convert_all_iff in B; congruence). apply (rows_free _ q R) in C. congruence.
    - split; [discriminate|]. intros (q & x & B & _). apply convert_all_iff in B. congruence.
  Qed.

  (** *** The values used, and the cores *)
  Lemma any_mode : forall card m, In card rl_cards -> trimmed isspace m -> m <> [] -> check_input card [(t "mode", Raw m)] = Some [(t "mode", VStr m)].
  Proof.
    intros card m R T Ne. apply rl_accepts; [exact R|constructor; [intros []|constructor]|]. assert (Sm : strip isspace m = m) by (pose proof (strip_mid isspace [] m [] (Forall_nil _) (Forall_nil _) T) as X; now rewrite app_nil_r in X). split; [|split].
    - constructor; [|constructor]. cbn [fst snd]. split; [reflexivity|]. exists Req, KStr. split; [now destruct (specials card R)|]. rewrite <- Sm at 2. constructor.
    - intros n k I. cbn [map fst]. left. assert (H : forall c, In c rl_cards -> forallb (fun x => match fst (snd x) with Req => teqb (t "mode") (fst x) | _ => true end) (table c) = true) by (intros c Hc; cbn in Hc; destruct Hc as [<-|[<-|[<-|[<-|[]]]]]; vm_compute; reflexivity).
      specialize (H card R). rewrite forallb_forall in H. specialize (H _ I). cbn [fst snd] in H. now apply teqb_iff.
    - exists m. split; [now left|]. unfold mode_rules. cbn [map fst]. split; [now left|]. split; [intros _ n I [<-|[]]; cbn in I; intuition discriminate|]. split; [intros _ n I [<-|[]]; cbn in I; intuition discriminate|]. intros _ n [<-|[]]. right. now left.
  Qed.
  Lemma adjusted_least : forall f n, (1 <= n)%Z -> (f <= adjusted f n)%Z /\ (exists q, adjusted f n = q * n)%Z /\ forall q, (f <= q * n -> adjusted f n <= q * n)%Z.
  Proof.
    intros f n H. unfold adjusted. pose proof (Z.div_mod f n ltac:(lia)) as E. pose proof (Z.mod_pos_bound f n ltac:(lia)) as B. destruct (1 <? n)%Z eqn:L.
    - apply Z.ltb_lt in L. destruct (f mod n =? 0)%Z eqn:M.
      + apply Z.eqb_eq in M. split; [lia|]. split; [exists (f / n)%Z; nia|auto].
      + apply Z.eqb_neq in M. split; [lia|]. split; [exists (f / n + 1)%Z; nia|]. intros q Hq. assert (f / n < q)%Z by nia. nia.
    - apply Z.ltb_ge in L. assert (n = 1)%Z as -> by lia. split; [lia|]. split; [exists f; lia|lia].
  Qed.
  Variable cpu_count : Z.
  Variable default : text -> text -> option (@val D F).
  Notation final := (final default). Notation setup := (setup isspace to_float trunc dict_text cpu_count default).
  Lemma setup_iff : forall g algs g' a, setup g algs = Some (g', a) <->
    check_input (t "GENERAL") g = Some g' /\ Forall2 (fun x y => fst y = fst x /\ check_input (fst x) (snd x) = Some (snd y)) algs a /\
    exists ns, Forall2 (fun y n => final (fst y) (snd y) (t "ncores") = Some (VInt n)) a ns /\
      forall m, dget (t "maxcores") g' = Some (VInt m) -> (fold_right Z.add 0 ns <= if m <=? 0 then cpu_count else m)%Z.
  Proof.
    intros g algs g' a. unfold IP_Model.setup.
    assert (Ca : forall l u, check_all isspace to_float trunc dict_text l = Some u <-> Forall2 (fun x y => fst y = fst x /\ check_input (fst x) (snd x) = Some (snd y)) l u).
    { induction l as [|[c d] l IH]; intros u; cbn [check_all]; [split; [intros H; injection H as <-; constructor|intros H; inversion H; reflexivity]|]. split.
      - destruct (check_input c d) as [q|] eqn:C; [|discriminate]. destruct (check_all _ _ _ _ l) as [v|] eqn:L; [|discriminate]. intros H. injection H as <-. constructor; [split; [reflexivity|exact C]|now apply IH].
      - intros H. inversion H as [|? [c' q] ? v (E & C) L]; subst. cbn [fst snd] in *. subst c'. rewrite C. apply IH in L. now rewrite L. }
    assert (Co : forall l z, cores default l = Some z <-> exists ns, Forall2 (fun y n => final (fst y) (snd y) (t "ncores") = Some (VInt n)) l ns /\ z = fold_right Z.add 0%Z ns).
    { induction l as [|[c p] l IH]; intros z; cbn [cores]; [split; [intros H; injection H as <-; exists []; split; [constructor|reflexivity]|intros (ns & H & ->); inversion H; reflexivity]|]. split.
      - destruct (final c p (t "ncores")) as [[s|n|f|b|ls|lv|dd]|] eqn:C; cbn [int_of]; try discriminate. destruct (cores default l) as [m|] eqn:L; [|discriminate]. intros H. injection H as <-. destruct (proj1 (IH m) eq_refl) as (ns & Hn & ->). exists (n :: ns). split; [constructor; [exact C|exact Hn]|reflexivity].
      - intros (ns & H & ->). inversion H as [|? n ? ns' C Hn]; subst. cbn [fst snd] in C. rewrite C. cbn [int_of]. rewrite (proj2 (IH _) (ex_intro _ ns' (conj Hn eq_refl))). reflexivity. }
    split.
    - destruct (check_input (t "GENERAL") g) as [g0|] eqn:G; [|discriminate]. destruct (check_all _ _ _ _ algs) as [a0|] eqn:A; [|discriminate]. destruct (cores default a0) as [u|] eqn:U; [|discriminate]. intros H.
      assert (E : g0 = g' /\ a0 = a /\ match limit cpu_count g0 with Some m => (u <= m)%Z | None => True end). { destruct (limit cpu_count g0) as [m|]; [destruct (u <=? m)%Z eqn:X; [|discriminate]; apply Z.leb_le in X|]; injection H as <- <-; auto. }
      destruct E as (<- & <- & L). split; [reflexivity|]. split; [now apply Ca|]. apply Co in U. destruct U as (ns & Hn & ->). exists ns. split; [exact Hn|]. intros m M. unfold limit in L. rewrite M in L. exact L.
    - intros (G & A & ns & Hn & L). rewrite G. apply Ca in A. rewrite A. assert (U : cores default a = Some (fold_right Z.add 0%Z ns)) by (apply Co; now exists ns). rewrite U.
      unfold limit. destruct (dget (t "maxcores") g') as [[s|m|f|b|ls|lv|dd]|] eqn:M; try reflexivity. rewrite (proj2 (Z.leb_le _ _) (L m eq_refl)). reflexivity.
  Qed.
End Check.
