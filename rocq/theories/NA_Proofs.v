(** Proofs about the layers of policy networks. *)
From Coq Require Import String List Arith Bool Lia.
From Verif Require Import NA_Model NA_Spec.
Import ListNotations.
Open Scope string_scope. Open Scope list_scope. Open Scope nat_scope.

Definition num_from (k : kind) (i : nat) (l : list (option nat)) : list level :=
  flat_map (fun x => match snd x with Some u => [Layer k (fst x) u] | None => [] end) (combine (seq i (length l)) l).
Definition mem_from (c i : nat) (l : list (option nat)) : list level :=
  map (fun x => match snd x with Some u => Layer Shared (fst x) u | None => Memory c end) (combine (seq i (length l)) l).

Lemma build_app n l m : build n (l ++ m) = build (build n l) m.
Proof. unfold build. apply fold_left_app. Qed.

Lemma shared_ok idx latent a n p v : shared_loop idx latent a = Returns (n, (p, v)) <->
  exists shared rest, a = map AInt shared ++ rest /\ n = build latent (num_from Shared idx (map Some shared)) /\
    ((rest = [] /\ p = [] /\ v = []) \/ exists d r, rest = ADict d :: r /\ branches d = Some (p, v)).
Proof.
  revert idx latent. induction a as [|x a IH]; intros idx latent; simpl.
  - split.
    + intros H. injection H as <- <- <-. exists [], []. repeat split. left; auto.
    + intros (sh & rest & E & -> & R). destruct sh; [|discriminate]. simpl in E. subst rest. destruct R as [(_ & -> & ->)|(d & r & E & _)]; [reflexivity|discriminate].
  - destruct x as [u| |d|]; simpl.
    + rewrite IH. split.
      * intros (sh & rest & -> & -> & R). exists (u :: sh), rest. repeat split; auto.
      * intros (sh & rest & E & -> & R). destruct sh as [|w sh]; simpl in E.
        { subst rest. destruct R as [(E & _)|(d & r & E & _)]; discriminate. }
        injection E as <- E. exists sh, rest. repeat split; auto.
    + split; [discriminate|]. intros (sh & rest & E & _ & R). destruct sh; [|discriminate]. simpl in E. subst rest. destruct R as [(E & _)|(d & r & E & _)]; discriminate.
    + split.
      * destruct (branches d) as [[p' v']|] eqn:B; [|discriminate]. intros H. injection H as <- <- <-. exists [], (ADict d :: a). simpl. repeat split. right. eauto.
      * intros (sh & rest & E & -> & R). destruct sh; [|discriminate]. simpl in E. subst rest. destruct R as [(E & _)|(d' & r & E & B)]; [discriminate|]. injection E as <- <-. rewrite B. reflexivity.
    + split; [discriminate|]. intros (sh & rest & E & _ & R). destruct sh; [|discriminate]. simpl in E. subst rest. destruct R as [(E & _)|(d & r & E & _)]; discriminate.
Qed.

Lemma layer_ok k i x n m : layer k i x n = Some m <-> (exists u, x = IInt u /\ m = Dense k i u n) \/ (x = INone /\ m = n).
Proof.
  destruct x; simpl; split; intros H; try discriminate.
  - injection H as <-. left. eauto.
  - destruct H as [(u & E & ->)|[E _]]; [injection E as <-; reflexivity|discriminate].
  - destruct H as [(u & E & _)|[E _]]; discriminate.
  - injection H as <-. right. auto.
  - destruct H as [(u & E & _)|[_ ->]]; [discriminate|reflexivity].
  - destruct H as [(u & E & _)|[E _]]; discriminate.
Qed.

(** The two branches one by one. *)
Fixpoint one_branch (k : kind) (i : nat) (n : net) (l : list item) : option net := match l with [] => Some n | x :: r => match layer k i x n with None => None | Some m => one_branch k (S i) m r end end.
Lemma branch_ok k i n l m : one_branch k i n l = Some m <-> exists s, l = items s /\ m = build n (num_from k i s).
Proof.
  revert i n. induction l as [|x l IH]; intros i n; simpl.
  - split; [intros H; injection H as <-; exists []; auto|]. intros ([|s r] & E & ->); [reflexivity|discriminate].
  - destruct (layer k i x n) as [n'|] eqn:L.
    + rewrite IH. apply layer_ok in L. split.
      * intros (s & -> & ->). destruct L as [(u & -> & ->)|[-> ->]]; [exists (Some u :: s)|exists (None :: s)]; auto.
      * intros ([|o s] & E & ->); [discriminate|]. injection E as E1 E2. exists s. split; [exact E2|].
        destruct o; simpl in E1; destruct L as [(u & -> & ->)|[-> ->]]; try discriminate; [injection E1 as ->|]; reflexivity.
    + split; [discriminate|]. intros ([|o s] & E & _); [discriminate|]. injection E as E1 _. exfalso. destruct o; subst x; discriminate.
Qed.
Lemma zip_ok i lp lv p v a b : zip_loop i lp lv p v = Returns (a, b) <-> one_branch Pi i lp p = Some a /\ one_branch Vf i lv v = Some b.
Proof.
  revert i lp lv v. induction p as [|x p IH]; intros i lp lv v.
  - simpl. revert i lv. induction v as [|y v IHv]; intros i lv; simpl.
    + split; [intros H; injection H as <- <-; auto|intros [H G]; congruence].
    + destruct (layer Vf i y lv) as [lv'|]; [apply IHv|]. split; [discriminate|intros [_ H]; discriminate].
  - destruct v as [|y v]; simpl.
    + destruct (layer Pi i x lp) as [lp'|]; [rewrite IH; reflexivity|]. split; [discriminate|intros [H _]; discriminate].
    + destruct (layer Pi i x lp) as [lp'|]; [|split; [discriminate|intros [H _]; discriminate]].
      destruct (layer Vf i y lv) as [lv'|]; [apply IH|]. split; [discriminate|intros [_ H]; discriminate].
Qed.
Lemma zip_error i lp lv p v e : zip_loop i lp lv p v = Raises e -> e = AssertionError.
Proof.
  revert i lp lv v. induction p as [|x p IH]; intros i lp lv v.
  - simpl. revert i lv. induction v as [|y v IHv]; intros i lv; simpl; [discriminate|]. destruct (layer Vf i y lv); [apply IHv|congruence].
  - destruct v as [|y v]; simpl; (destruct (layer Pi i x lp); [|congruence]); [apply IH|]. destruct (layer Vf i y lv); [apply IH|congruence].
Qed.
Lemma shared_error i n a e : shared_loop i n a = Raises e -> e = AssertionError.
Proof. revert i n. induction a as [|[u| |d|] a IH]; intros i n; simpl; try congruence; [apply IH|]. destruct (branches d); congruence. Qed.

Lemma given_branch k d s : given k d s <-> branch k d = Some (items s).
Proof.
  unfold given, branch. destruct (dget k d) as [[l|]|]; split; intros H.
  - destruct H as [[H _]|H]; [discriminate|]. now injection H as ->.
  - right. now injection H as ->.
  - destruct H as [[H _]|H]; discriminate.
  - discriminate.
  - destruct H as [[_ ->]|H]; [reflexivity|discriminate].
  - injection H as H. left. split; [reflexivity|]. destruct s; [reflexivity|discriminate].
Qed.
Lemma branches_given d ps vs : branches d = Some (items ps, items vs) <-> given "pi" d ps /\ given "vf" d vs.
Proof.
  rewrite !given_branch. unfold branches. destruct (branch "pi" d), (branch "vf" d); split; try discriminate; try (intros [H G]; discriminate).
  - intros H. injection H as -> ->. auto.
  - intros [H G]. injection H as ->. injection G as ->. reflexivity.
Qed.
Lemma ends_branches rest ps vs : ends rest ps vs <-> (rest = [] /\ items ps = [] /\ items vs = []) \/ exists d r, rest = ADict d :: r /\ branches d = Some (items ps, items vs).
Proof.
  unfold ends. split; intros [(-> & A & B)|(d & r & -> & H)].
  - left. subst. auto.
  - right. exists d, r. split; [reflexivity|]. now apply branches_given.
  - left. destruct ps, vs; try discriminate; auto.
  - right. exists d, r. split; [reflexivity|]. now apply branches_given.
Qed.

Theorem mlp_iff flat a p v : mlp_extractor flat a = Returns (p, v) <->
  exists shared pi vf, describes a shared pi vf /\ p = build flat (numbered Shared (map Some shared) ++ numbered Pi pi) /\ v = build flat (numbered Shared (map Some shared) ++ numbered Vf vf).
Proof.
  unfold mlp_extractor. destruct (shared_loop 0 flat a) as [[n [p0 v0]]|e] eqn:E.
  - rewrite zip_ok. apply shared_ok in E. destruct E as (sh & rest & -> & -> & R). split.
    + intros [A B]. apply branch_ok in A. apply branch_ok in B. destruct A as (ps & -> & ->). destruct B as (vs & -> & ->).
      exists sh, ps, vs. split; [exists rest; split; [reflexivity|apply ends_branches; exact R]|]. rewrite !build_app. auto.
    + intros (sh' & ps & vs & (rest' & E & R') & -> & ->). apply ends_branches in R'. rewrite !build_app.
      assert (G : sh = sh' /\ rest = rest').
      { clear - E R R'. revert sh' E. induction sh as [|x sh IH]; intros [|y sh'] E; simpl in E.
        - auto.
        - exfalso. subst rest. destruct R as [(R & _)|(d & r & R & _)]; discriminate.
        - exfalso. subst rest'. destruct R' as [(R' & _)|(d & r & R' & _)]; discriminate.
        - injection E as -> E. destruct (IH sh' E) as [-> ->]. auto. }
      destruct G as [<- <-].
      assert (p0 = items ps /\ v0 = items vs) as [-> ->].
      { destruct R as [(-> & -> & ->)|(d & r & -> & B)]; destruct R' as [(E' & A' & B')|(d' & r' & E' & B')]; try discriminate; [auto|]. injection E' as <- <-. rewrite B in B'. injection B' as -> ->. auto. }
      split; apply branch_ok; eauto.
  - split; [discriminate|]. intros (sh & ps & vs & (rest & -> & R) & _ & _). exfalso.
    assert (exists n p v, shared_loop 0 flat (map AInt sh ++ rest) = Returns (n, (p, v))) as (n & p' & v' & H); [|congruence].
    apply ends_branches in R. exists (build flat (num_from Shared 0 (map Some sh))), (items ps), (items vs). apply shared_ok. exists sh, rest. auto.
Qed.

Theorem mlp_error flat a e : mlp_extractor flat a = Raises e -> e = AssertionError.
Proof. unfold mlp_extractor. destruct (shared_loop 0 flat a) as [[n [p v]]|e'] eqn:E; [apply zip_error|]. intros H. injection H as <-. eapply shared_error; eauto. Qed.
Theorem mlp_rest flat a d r : mlp_extractor flat (a ++ ADict d :: r) = mlp_extractor flat (a ++ [ADict d]).
Proof.
  unfold mlp_extractor. replace (shared_loop 0 flat (a ++ ADict d :: r)) with (shared_loop 0 flat (a ++ [ADict d])); [reflexivity|].
  generalize 0. revert flat. induction a as [|[u| |d'|] a IH]; intros flat i; simpl; auto.
Qed.
Theorem mlp_shared flat shared : exists p, mlp_extractor flat (map AInt shared) = Returns (p, p).
Proof.
  exists (build flat (numbered Shared (map Some shared) ++ [])). apply mlp_iff. exists shared, [], []. split; [|auto].
  exists []. split; [now rewrite app_nil_r|left; auto].
Qed.

(** ** FeedForwardPolicy *)
Theorem ff_arch layers a : feed_forward Mlp false layers (Some a) = mlp_extractor Flat a.
Proof. reflexivity. Qed.
Theorem ff_layers layers p v : feed_forward Mlp false layers None = Returns (p, v) <->
  exists s, items s = match layers with Some l => l | None => [IInt 64; IInt 64] end /\ p = build Flat (numbered Pi s) /\ v = build Flat (numbered Vf s).
Proof.
  unfold feed_forward. simpl. unfold mlp_extractor. simpl. rewrite zip_ok. change (match layers with Some l => l | None => [IInt 64; IInt 64] end) with (default_layers layers). split.
  - intros [A B]. apply branch_ok in A. apply branch_ok in B. destruct A as (s & A & ->). destruct B as (t & B & ->).
    assert (s = t).
    { rewrite A in B. clear A. revert t B. induction s as [|x s IH]; intros [|y t] B; try discriminate; [reflexivity|]. injection B as E B.
      f_equal; [destruct x, y; congruence|auto]. }
    subst t. exists s. auto.
  - intros (s & E & -> & ->). split; apply branch_ok; exists s; auto.
Qed.
Theorem ff_cnn extra layers net_arch : feed_forward Cnn extra layers net_arch = Returns (Features, Features).
Proof. reflexivity. Qed.
Theorem unknown_keywords n layers net_arch : feed_forward Mlp true layers net_arch = Raises ValueError /\ lstm_policy Mlp true n layers net_arch = Raises ValueError.
Proof. split; reflexivity. Qed.

(** ** LstmPolicy *)
Definition is_none (o : option nat) : bool := match o with None => true | _ => false end.
Lemma lstm_ok c idx con latent a con' n p v : lstm_loop c idx con latent a = Returns (con', n, (p, v)) <->
  exists sh rest, a = front sh ++ rest /\ n = build latent (mem_from c idx sh) /\ nones sh + (if con then 1 else 0) = (if con' then 1 else 0) /\
    ((rest = [] /\ p = [] /\ v = []) \/ exists d r, rest = ADict d :: r /\ branches d = Some (p, v)).
Proof.
  assert (NR : forall sh rest x a, x :: a = front sh ++ rest -> (x = ABad \/ exists u, x = AInt u \/ x = ALstm) -> ((rest = [] /\ p = [] /\ v = []) \/ exists d r, rest = ADict d :: r /\ branches d = Some (p, v)) ->
    exists o sh', sh = o :: sh' /\ x = (match o with Some n => AInt n | None => ALstm end) /\ a = front sh' ++ rest).
  { intros [|o sh] rest x a' E X R; simpl in E.
    - exfalso. subst rest. destruct R as [(E & _)|(d & r & E & _)]; [discriminate|]. injection E as -> _. destruct X as [X|(u & [X|X])]; discriminate.
    - injection E as -> E. eauto. }
  revert idx con latent. induction a as [|x a IH]; intros idx con latent; simpl.
  - split.
    + intros H. injection H as <- <- <- <-. exists [], []. repeat split. left; auto.
    + intros (sh & rest & E & -> & K & R). destruct sh; [|discriminate]. simpl in E. subst rest. simpl in K. destruct R as [(_ & -> & ->)|(d & r & E & _)]; [|discriminate]. destruct con, con'; simpl in K; try lia; reflexivity.
  - destruct x as [u| |d|].
    + rewrite IH. split.
      * intros (sh & rest & -> & -> & K & R). exists (Some u :: sh), rest. repeat split; auto.
      * intros (sh & rest & E & -> & K & R). destruct (NR _ _ _ _ E) as (o & sh' & -> & X & ->); [right; eauto|exact R|]. destruct o; [|discriminate]. injection X as <-. exists sh', rest. repeat split; auto.
    + destruct con.
      * split; [discriminate|]. intros (sh & rest & E & -> & K & R). destruct (NR _ _ _ _ E) as (o & sh' & -> & X & ->); [right; exists 0; auto|exact R|]. destruct o; [discriminate|]. unfold nones in K. simpl in K. destruct con'; lia.
      * rewrite IH. split.
        -- intros (sh & rest & -> & -> & K & R). exists (None :: sh), rest. repeat split; auto. unfold nones in *. simpl. lia.
        -- intros (sh & rest & E & -> & K & R). destruct (NR _ _ _ _ E) as (o & sh' & -> & X & ->); [right; exists 0; auto|exact R|]. destruct o; [discriminate|]. exists sh', rest. repeat split; auto. unfold nones in *. simpl in K. lia.
    + split.
      * destruct (branches d) as [[p' v']|] eqn:B; [|discriminate]. intros H. injection H as <- <- <- <-. exists [], (ADict d :: a). simpl. repeat split. right. eauto.
      * intros (sh & rest & E & -> & K & R). destruct sh as [|[o|] sh]; [|discriminate|discriminate]. simpl in E. subst rest. simpl in K. destruct R as [(E & _)|(d' & r & E & B)]; [discriminate|]. injection E as <- <-. rewrite B. destruct con, con'; simpl in K; try lia; reflexivity.
    + split; [discriminate|]. intros (sh & rest & E & _ & _ & R). destruct (NR _ _ _ _ E) as (o & sh' & -> & X & _); [left; auto|exact R|]. destruct o; discriminate.
Qed.
Lemma lbranch_ok k i n l m : branch_loop k i n l = Returns m <-> exists s, l = items (map Some s) /\ m = build n (num_from k i (map Some s)).
Proof.
  revert i n. induction l as [|x l IH]; intros i n; simpl.
  - split; [intros H; injection H as <-; exists []; auto|]. intros ([|s r] & E & ->); [reflexivity|discriminate].
  - destruct x as [u| | |]; try (split; [discriminate|intros ([|s r] & E & _); discriminate]).
    rewrite IH. split.
    + intros (s & -> & ->). exists (u :: s). auto.
    + intros ([|w s] & E & ->); [discriminate|]. injection E as <- E. exists s. auto.
Qed.

Lemma front_inj sh rest sh' rest' : front sh ++ rest = front sh' ++ rest' -> (rest = [] \/ exists d r, rest = ADict d :: r) -> (rest' = [] \/ exists d r, rest' = ADict d :: r) -> sh = sh' /\ rest = rest'.
Proof.
  revert sh'. induction sh as [|x sh IH]; intros [|y sh'] E R R'; simpl in E.
  - auto.
  - exfalso. subst rest. destruct R as [R|(d & r & R)]; [discriminate|]. destruct y; discriminate.
  - exfalso. subst rest'. destruct R' as [R'|(d & r & R')]; [discriminate|]. destruct x; discriminate.
  - injection E as X E. destruct (IH sh' E R R') as [-> ->]. destruct x, y; try discriminate; [injection X as ->|]; auto.
Qed.
Lemma ends_shape rest p v : ends rest p v -> rest = [] \/ exists d r, rest = ADict d :: r.
Proof. intros [(-> & _)|(d & r & -> & _)]; eauto. Qed.

Lemma lstm_described c a sh ps vs : describes_lstm a sh ps vs -> lstm_loop c 0 false Flat a = Returns (true, build Flat (with_memory c sh), (items ps, items vs)) \/ nones sh <> 1.
Proof.
  intros (rest & -> & R). destruct (Nat.eq_dec (nones sh) 1) as [E|]; [left|auto]. apply lstm_ok. exists sh, rest. repeat split; [simpl; lia|]. now apply ends_branches.
Qed.
Theorem lstm_iff c layers a p v : lstm_policy Mlp false c layers (Some a) = Returns (p, v) <->
  exists sh pi vf, describes_lstm a sh (map Some pi) (map Some vf) /\ nones sh = 1 /\
    p = build Flat (with_memory c sh ++ numbered Pi (map Some pi)) /\ v = build Flat (with_memory c sh ++ numbered Vf (map Some vf)).
Proof.
  unfold lstm_policy. simpl. split.
  - destruct (lstm_loop c 0 false Flat a) as [[[con n] [p0 v0]]|e] eqn:E; [|discriminate].
    destruct (branch_loop Pi 0 n p0) as [lp|] eqn:A; [|discriminate]. destruct (branch_loop Vf 0 n v0) as [lv|] eqn:B; [|discriminate]. destruct con; [|discriminate].
    intros H. injection H as <- <-. apply lstm_ok in E. destruct E as (sh & rest & -> & -> & K & R). apply lbranch_ok in A. apply lbranch_ok in B.
    destruct A as (ps & -> & ->). destruct B as (vs & -> & ->). exists sh, ps, vs. split; [exists rest; split; [reflexivity|now apply ends_branches]|]. rewrite !build_app. repeat split. lia.
  - intros (sh & ps & vs & D & K & -> & ->). destruct (lstm_described c _ _ _ _ D) as [->|N]; [|contradiction].
    rewrite !build_app.
    assert (A : forall k, branch_loop k 0 (build Flat (with_memory c sh)) (items (map Some ps)) = Returns (build (build Flat (with_memory c sh)) (numbered k (map Some ps)))) by (intros k; apply lbranch_ok; exists ps; auto).
    assert (B : forall k, branch_loop k 0 (build Flat (with_memory c sh)) (items (map Some vs)) = Returns (build (build Flat (with_memory c sh)) (numbered k (map Some vs)))) by (intros k; apply lbranch_ok; exists vs; auto).
    rewrite A, B. reflexivity.
Qed.
Lemma lstm_twice_loop c sh rest : forall i (con : bool) n, 2 <= nones sh + (if con then 1 else 0) -> lstm_loop c i con n (front sh ++ rest) = Raises ValueError \/ (con = true /\ nones sh = 0) \/ (nones sh + (if con then 1 else 0) < 2).
Proof.
  induction sh as [|[u|] sh IH]; intros i con n H; simpl.
  - unfold nones in H. simpl in H. destruct con; lia.
  - apply (IH (S i) con). exact H.
  - destruct con; [auto|]. unfold nones in *. simpl in *. destruct (IH (S i) true (Lstm c n)) as [A|[A|A]]; auto; [lia|destruct A as [_ A]; lia|lia].
Qed.
Theorem lstm_twice c layers sh rest : 2 <= nones sh -> lstm_policy Mlp false c layers (Some (front sh ++ rest)) = Raises ValueError.
Proof. intros H. unfold lstm_policy. simpl. destruct (lstm_twice_loop c sh rest 0 false Flat) as [->|[[E _]|E]]; [simpl; lia|reflexivity|discriminate|simpl in E; lia]. Qed.
Theorem lstm_missing c layers a sh pi vf : describes_lstm a sh (map Some pi) (map Some vf) -> nones sh = 0 -> lstm_policy Mlp false c layers (Some a) = Raises ValueError.
Proof.
  intros (rest & -> & R) K. unfold lstm_policy. simpl.
  assert (E : lstm_loop c 0 false Flat (front sh ++ rest) = Returns (false, build Flat (with_memory c sh), (items (map Some pi), items (map Some vf)))).
  { apply lstm_ok. exists sh, rest. repeat split; [simpl; lia|]. now apply ends_branches. }
  rewrite E.
  assert (A : forall k s, branch_loop k 0 (build Flat (with_memory c sh)) (items (map Some s)) = Returns (build (build Flat (with_memory c sh)) (numbered k (map Some s)))) by (intros k s; apply lbranch_ok; exists s; auto).
  rewrite !A. reflexivity.
Qed.
Lemma branch_lstm k i n l r : branch_loop k i n (items (map Some l) ++ ILstm :: r) = Raises NotImplementedError.
Proof. revert i n. induction l as [|x l IH]; intros i n; simpl; auto. Qed.
Theorem lstm_branch c layers sh d r l s : nones sh <= 1 -> dget "pi" d = Some (DList (items (map Some l) ++ ILstm :: r)) -> given "vf" d s ->
  forall after, lstm_policy Mlp false c layers (Some (front sh ++ ADict d :: after)) = Raises NotImplementedError.
Proof.
  intros K P V after. unfold lstm_policy. simpl.
  assert (E : lstm_loop c 0 false Flat (front sh ++ ADict d :: after) = Returns ((nones sh =? 1), build Flat (with_memory c sh), (items (map Some l) ++ ILstm :: r, items s))).
  { apply lstm_ok. exists sh, (ADict d :: after). repeat split; [destruct (Nat.eqb_spec (nones sh) 1); simpl; lia|]. right. exists d, after. split; [reflexivity|].
    unfold branches. unfold branch at 1. rewrite P. apply given_branch in V. rewrite V. reflexivity. }
  rewrite E, branch_lstm. reflexivity.
Qed.
Lemma legacy_ok i n l m : legacy_loop i n l = Returns m <-> exists s, l = items (map Some s) /\ m = build n (num_from Pi i (map Some s)).
Proof.
  revert i n. induction l as [|x l IH]; intros i n; simpl.
  - split; [intros H; injection H as <-; exists []; auto|]. intros ([|s r] & E & ->); [reflexivity|discriminate].
  - destruct x as [u| | |]; try (split; [discriminate|intros ([|s r] & E & _); discriminate]).
    rewrite IH. split.
    + intros (s & -> & ->). exists (u :: s). auto.
    + intros ([|w s] & E & ->); [discriminate|]. injection E as <- E. exists s. auto.
Qed.
Theorem lstm_layers c layers p v : lstm_policy Mlp false c layers None = Returns (p, v) <->
  exists s, items (map Some s) = match layers with Some l => l | None => [IInt 64; IInt 64] end /\ p = build Flat (numbered Pi (map Some s) ++ [Memory c]) /\ v = p.
Proof.
  unfold lstm_policy. simpl. change (match layers with Some l => l | None => [IInt 64; IInt 64] end) with (default_layers layers). split.
  - destruct (legacy_loop 0 Flat (default_layers layers)) as [m|e] eqn:E; [|discriminate]. intros H. injection H as <- <-. apply legacy_ok in E.
    destruct E as (s & E & ->). exists s. rewrite build_app. auto.
  - intros (s & E & -> & ->). rewrite build_app.
    assert (L : legacy_loop 0 Flat (default_layers layers) = Returns (build Flat (numbered Pi (map Some s)))) by (apply legacy_ok; exists s; auto).
    rewrite L. reflexivity.
Qed.
Theorem lstm_cnn extra c layers net_arch : lstm_policy Cnn extra c layers net_arch = match net_arch with None => Returns (Lstm c Features, Lstm c Features) | Some _ => Raises NotImplementedError end.
Proof. destruct net_arch; reflexivity. Qed.
