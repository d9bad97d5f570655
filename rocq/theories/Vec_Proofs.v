From Coq Require Import List Arith Lia Bool.
From Verif Require Import Base BaseFacts Opt_Model Opt_Facts Opt_Facts2 Vec_Model Vec_Spec.
Import ListNotations.
Open Scope nat_scope.

Lemma ne_set_same {X} (l : list X) i x y : nth_error l i = Some y -> nth_error (set_nth l i x) i = Some x.
Proof. revert i. induction l as [|z l IH]; intros [|i] H; simpl in *; try discriminate; auto. Qed.
Lemma ne_set_other {X} (l : list X) i j x : i <> j -> nth_error (set_nth l i x) j = nth_error l j.
Proof. revert i j. induction l as [|z l IH]; intros [|i] [|j] H; simpl in *; try lia; auto. Qed.
Lemma set_len {X} (l : list X) i x : length (set_nth l i x) = length l.
Proof. revert i. induction l as [|y l IH]; intros [|i]; simpl; auto. Qed.

Section Proofs.
Context {St Act Obs Rew Info Req Val : Type}.
Context (env_step : St -> Act -> St * (Obs * Rew * bool * Info)) (env_reset : St -> St * Obs) (env_call : St -> Req -> St * Val).
Context (cast_obs : Obs -> Obs) (cast_rew : Rew -> Rew).
Notation handle := (handle env_step env_reset env_call).
Notation answers := (answers env_step env_reset env_call).
Notation seq_exec := (seq_exec env_step env_reset env_call).
Notation dummy_op := (dummy_op env_step env_reset env_call cast_obs cast_rew).
Notation dummy_run := (dummy_run env_step env_reset env_call cast_obs cast_rew).
Notation move := (move env_step env_reset env_call).
Notation moves := (moves env_step env_reset env_call).
Notation cmd := (@cmd Act Req).
Notation instr := (@instr Act Req).
Notation cast := (@cast Obs Rew Info Val cast_obs cast_rew).

Definition after (s : St) (cs : list cmd) : St := fold_left (fun s c => fst (handle s c)) cs s.
Lemma answers_app s cs c : answers s (cs ++ c) = answers s cs ++ answers (after s cs) c.
Proof. revert s. induction cs as [|x cs IH]; intros s; simpl; auto. destruct (handle s x) as [s1 m] eqn:E. simpl. rewrite IH. cbn [fst]. reflexivity. Qed.
Lemma answers_len s cs : length (answers s cs) = length cs.
Proof. revert s. induction cs as [|c cs IH]; intros s; simpl; auto. destruct (handle s c). simpl. auto. Qed.
Lemma after_snoc s cs c : after s (cs ++ [c]) = fst (handle (after s cs) c).
Proof. unfold after. rewrite fold_left_app. reflexivity. Qed.
Lemma commands_app i ps qs : commands i (ps ++ qs) = @commands Act Req i ps ++ commands i qs.
Proof. unfold commands. rewrite filter_app, map_app. reflexivity. Qed.

(** Sequential execution: every environment answers as if it were alone. *)
Definition occ (i : nat) (l : list nat) : nat := length (filter (Nat.eqb i) l).
Lemma occ_commands i (ps : list (nat * cmd)) : occ i (map fst ps) = length (commands i ps).
Proof.
  unfold occ, commands. rewrite map_length. induction ps as [|[j c] ps IH]; simpl; auto. rewrite (Nat.eqb_sym i j). destruct (j =? i); simpl; auto.
Qed.
Lemma seq_spec : forall ps ss, Forall (fun p => fst p < length ss) ps ->
  exists ss' ms, seq_exec ss ps = Some (ss', ms) /\ length ss' = length ss /\ length ms = length ps /\
    (forall i s, nth_error ss i = Some s -> nth_error ss' i = Some (after s (commands i ps))) /\
    (forall j i c, nth_error ps j = Some (i, c) -> exists s, nth_error ss i = Some s /\ nth_error (answers s (commands i ps)) (occ i (map fst (firstn j ps))) = nth_error ms j).
Proof.
  induction ps as [|[i c] ps IH]; intros ss F.
  - exists ss, []. simpl. repeat split; auto. intros [|j]; discriminate.
  - cbn [Vec_Model.seq_exec]. pose proof (Forall_inv F) as Hi. cbn [fst] in Hi. destruct (nth_error ss i) as [s|] eqn:Es; [|apply nth_error_None in Es; lia]. cbn [bind].
    destruct (handle s c) as [s1 m] eqn:Eh. destruct (IH (set_nth ss i s1)) as (ss' & ms & E & L1 & L2 & H1 & H2).
    { apply Forall_forall. intros p Hp. rewrite set_len. pose proof (Forall_inv_tail F) as Ft. rewrite Forall_forall in Ft. auto. }
    rewrite E. cbn [bind]. exists ss', (m :: ms). split; auto. split; [rewrite L1; apply set_len|]. split; [simpl; lia|]. split.
    + intros k sk Ek. unfold commands. cbn [filter fst]. destruct (i =? k) eqn:Eik.
      * apply Nat.eqb_eq in Eik. subst k. cbn [map snd after fold_left]. rewrite Es in Ek. inversion Ek; subst. rewrite Eh. cbn [fst]. apply (H1 i s1). eapply ne_set_same; eauto.
      * apply Nat.eqb_neq in Eik. apply H1. rewrite ne_set_other; auto.
    + intros [|j] k ck Ej; cbn [nth_error] in *.
      * inversion Ej; subst. exists s. split; auto. cbn [firstn map occ filter length]. unfold commands. cbn [filter fst]. rewrite Nat.eqb_refl. cbn [map snd Vec_Spec.answers]. rewrite Eh. reflexivity.
      * destruct (H2 j k ck Ej) as (sk & Ek & Hk). cbn [firstn map fst]. unfold occ in *. cbn [filter]. unfold commands in *. cbn [filter fst].
        destruct (i =? k) eqn:Eik.
        -- apply Nat.eqb_eq in Eik. subst k. rewrite Nat.eqb_refl. cbn [length map snd]. erewrite ne_set_same in Ek by eauto. inversion Ek; subst sk. exists s. split; auto. cbn [Vec_Spec.answers]. rewrite Eh. cbn [nth_error]. exact Hk.
        -- rewrite Nat.eqb_sym, Eik. exists sk. split; auto. apply Nat.eqb_neq in Eik. rewrite ne_set_other in Ek; auto.
Qed.
Lemma seq_app : forall ps qs ss, seq_exec ss (ps ++ qs) = let* '(s1, m1) := seq_exec ss ps in let* '(s2, m2) := seq_exec s1 qs in Some (s2, m1 ++ m2).
Proof.
  induction ps as [|[i c] ps IH]; intros qs ss; cbn [app Vec_Model.seq_exec bind].
  - destruct (seq_exec ss qs) as [[s m]|]; reflexivity.
  - destruct (nth_error ss i) as [s|]; cbn [bind]; auto. destruct (handle s c) as [s1 m]. rewrite IH. destruct (seq_exec (set_nth ss i s1) ps) as [[s2 m2]|]; cbn [bind]; auto.
    destruct (seq_exec s2 qs) as [[s3 m3]|]; reflexivity.
Qed.

(** The instructions already executed. *)
Definition sent (i : nat) (p : list instr) : list cmd := flat_map (fun x => match x with Send j c => if j =? i then [c] else [] | Recv _ => [] end) p.
Definition recvd (p : list instr) : list nat := flat_map (fun x => match x with Send _ _ => [] | Recv j => [j] end) p.
Lemma sent_app i p q : sent i (p ++ q) = sent i p ++ sent i q.
Proof. unfold sent. apply flat_map_app. Qed.
Lemma recvd_app p q : recvd (p ++ q) = recvd p ++ recvd q.
Proof. unfold recvd. apply flat_map_app. Qed.
Lemma occ_app i l l' : occ i (l ++ l') = occ i l + occ i l'.
Proof. unfold occ. rewrite filter_app, app_length. auto. Qed.

Section Run.
Context (ss : list St) (prog : list instr).
(** Worker [i] after the main process executed [p]. *)
Definition wgood (p : list instr) (i : nat) (w : @worker St Act Obs Rew Info Req Val) : Prop :=
  exists s pr taken, nth_error ss i = Some s /\ sent i p = pr ++ w_in w /\ w_env w = after s pr /\ answers s pr = taken ++ w_out w /\ length taken = occ i (recvd p).
Definition vinv (cf : @config St Act Obs Rew Info Req Val) : Prop :=
  exists p, prog = p ++ c_main cf /\ length (c_workers cf) = length ss /\ (forall i w, nth_error (c_workers cf) i = Some w -> wgood p i w) /\
    length (c_got cf) = length (recvd p) /\
    forall j i, nth_error (recvd p) j = Some i -> exists s, nth_error ss i = Some s /\ nth_error (answers s (sent i prog)) (occ i (firstn j (recvd p))) = nth_error (c_got cf) j.
Lemma vinv_new : vinv (config_new ss prog).
Proof.
  exists []. unfold config_new. cbn [c_main c_got c_workers]. split; auto. split; [apply map_length|]. split; [|split; [reflexivity|intros [|j]; discriminate]].
  intros i w H. rewrite nth_error_map in H. destruct (nth_error ss i) as [s|] eqn:E; [|discriminate]. inversion H; subst. exists s, [], []. repeat split; auto.
Qed.
Lemma firstn_app_le {X} (l l' : list X) j : j <= length l -> firstn j (l ++ l') = firstn j l.
Proof. intros H. rewrite firstn_app. replace (j - length l) with 0 by lia. simpl. apply app_nil_r. Qed.
Lemma nth_error_snoc {X} (l : list X) x : nth_error (l ++ [x]) (length l) = Some x.
Proof. rewrite nth_error_app2, Nat.sub_diag by lia. reflexivity. Qed.
Lemma vinv_move cf ch cf' : vinv cf -> move cf ch = Some cf' -> vinv cf'.
Proof.
  intros (p & Ep & Lw & Hw & Lg & Hg) E. unfold Vec_Model.move in E. destruct ch as [|i].
  - destruct (c_main cf) as [|[i c|i] r] eqn:Em; [discriminate| |].
    + apply bind_Some in E. destruct E as (w & Ew & E). inversion E; subst cf'. clear E. exists (p ++ [Send i c]). cbn [c_main c_got c_workers]. rewrite <- app_assoc. split; auto. rewrite set_len. split; auto.
      assert (Hr : recvd (p ++ [Send i c]) = recvd p) by (rewrite recvd_app; simpl; apply app_nil_r). rewrite Hr. split; [|split; auto].
      intros k wk Ek. destruct (Nat.eq_dec i k) as [<-|Hk].
      * erewrite ne_set_same in Ek by eauto. inversion Ek; subst wk. destruct (Hw i w Ew) as (s & pr & tk & H1 & H2 & H3 & H4 & H5).
        exists s, pr, tk. cbn [w_in w_out w_env]. rewrite Hr, sent_app, H2. cbn [sent flat_map]. rewrite Nat.eqb_refl, app_nil_r, <- app_assoc. auto.
      * rewrite ne_set_other in Ek by auto. destruct (Hw k wk Ek) as (s & pr & tk & H1 & H2 & H3 & H4 & H5).
        exists s, pr, tk. rewrite Hr, sent_app. cbn [sent flat_map]. replace (i =? k) with false by (symmetry; apply Nat.eqb_neq; auto). rewrite !app_nil_r. auto.
    + apply bind_Some in E. destruct E as (w & Ew & E). destruct (w_out w) as [|m o] eqn:Eo; [discriminate|]. inversion E; subst cf'. clear E. exists (p ++ [Recv i]). cbn [c_main c_got c_workers]. rewrite <- app_assoc. split; auto. rewrite set_len. split; auto.
      assert (Hr : recvd (p ++ [Recv i]) = recvd p ++ [i]) by (rewrite recvd_app; reflexivity). assert (Hs : forall k, sent k (p ++ [Recv i]) = sent k p) by (intros; rewrite sent_app; simpl; apply app_nil_r).
      rewrite Hr. split; [|split; [rewrite !app_length; simpl; lia|]].
      * intros k wk Ek. destruct (Nat.eq_dec i k) as [<-|Hk].
        -- erewrite ne_set_same in Ek by eauto. inversion Ek; subst wk. destruct (Hw i w Ew) as (s & pr & tk & H1 & H2 & H3 & H4 & H5).
           exists s, pr, (tk ++ [m]). cbn [w_in w_out w_env]. rewrite Hr, Hs, occ_app. split; auto. split; auto. split; auto. split; [rewrite H4, Eo, <- app_assoc; reflexivity|]. rewrite app_length, H5. unfold occ at 3. cbn [filter]. rewrite Nat.eqb_refl. reflexivity.
        -- rewrite ne_set_other in Ek by auto. destruct (Hw k wk Ek) as (s & pr & tk & H1 & H2 & H3 & H4 & H5). exists s, pr, tk. rewrite Hr, Hs, occ_app. repeat split; auto. unfold occ at 2. cbn [filter]. replace (k =? i) with false by (symmetry; apply Nat.eqb_neq; auto). simpl. lia.
      * intros j k Ej. destruct (lt_dec j (length (recvd p))) as [Hj|Hj].
        -- rewrite nth_error_app1 in Ej by auto. rewrite firstn_app_le by lia. rewrite nth_error_app1 by lia. auto.
        -- assert (j = length (recvd p)). { assert (j < length (recvd p ++ [i])) by (apply nth_error_Some; congruence). rewrite app_length in H. simpl in H. lia. }
           subst j. rewrite nth_error_snoc in Ej. inversion Ej; subst k. destruct (Hw i w Ew) as (s & pr & tk & H1 & H2 & H3 & H4 & H5). exists s. split; auto.
           rewrite <- Lg at 2. rewrite nth_error_snoc. rewrite firstn_app_le, firstn_all by lia. rewrite Ep, sent_app, H2, <- app_assoc, answers_app, H4, <- H5, Eo. rewrite <- app_assoc. rewrite nth_error_app2, Nat.sub_diag by lia. reflexivity.
  - apply bind_Some in E. destruct E as (w & Ew & E). destruct (w_in w) as [|c rest] eqn:Ei; [discriminate|]. destruct (handle (w_env w) c) as [s1 m] eqn:Eh. inversion E; subst cf'. clear E.
    exists p. cbn [c_main c_got c_workers]. split; auto. rewrite set_len. split; auto. split; auto. intros k wk Ek. destruct (Nat.eq_dec i k) as [<-|Hk].
    + erewrite ne_set_same in Ek by eauto. inversion Ek; subst wk. destruct (Hw i w Ew) as (s & pr & tk & H1 & H2 & H3 & H4 & H5). exists s, (pr ++ [c]), tk. cbn [w_in w_out w_env].
      split; auto. split; [rewrite H2, Ei, <- app_assoc; reflexivity|]. split; [rewrite after_snoc, <- H3, Eh; reflexivity|]. split; auto. rewrite answers_app, H4, <- H3, <- app_assoc. cbn [Vec_Spec.answers]. rewrite Eh. reflexivity.
    + rewrite ne_set_other in Ek by auto. auto.
Qed.
Lemma vinv_moves : forall sched cf cf', vinv cf -> moves cf sched = Some cf' -> vinv cf'.
Proof.
  induction sched as [|ch r IH]; intros cf cf' I E; simpl in E; [inversion E; subst; auto|]. apply bind_Some in E. destruct E as (cf1 & E1 & E). eapply IH; [eapply vinv_move|]; eauto.
Qed.
End Run.

(** The bound on the number of moves. *)
Definition mu (cf : @config St Act Obs Rew Info Req Val) : nat := work_bound (c_main cf) + list_sum (map (fun w => length (w_in w)) (c_workers cf)).
Lemma sum_set {X} (f : X -> nat) (l : list X) i x y : nth_error l i = Some y -> list_sum (map f (set_nth l i x)) + f y = list_sum (map f l) + f x.
Proof.
  revert i. induction l as [|z l IH]; intros [|i] H; simpl in *; try discriminate; [inversion H; subst; lia|]. specialize (IH i H). unfold list_sum in *. lia.
Qed.
Lemma mu_move cf ch cf' : move cf ch = Some cf' -> S (mu cf') = mu cf.
Proof.
  unfold Vec_Model.move, mu, work_bound. destruct ch as [|i]; intros E.
  - destruct (c_main cf) as [|[i c|i] r] eqn:Em; [discriminate| |]; apply bind_Some in E; destruct E as (w & Ew & E).
    + inversion E; subst cf'. cbn [c_main c_workers length filter is_send]. pose proof (sum_set (fun w => length (w_in w)) _ _ (Worker (w_env w) (w_in w ++ [c]) (w_out w)) _ Ew) as H. cbn [w_in] in H. rewrite app_length in H. cbn [length] in H. lia.
    + destruct (w_out w) as [|m o]; [discriminate|]. inversion E; subst cf'. cbn [c_main c_workers length filter is_send]. pose proof (sum_set (fun w => length (w_in w)) _ _ (Worker (w_env w) (w_in w) o) _ Ew) as H. cbn [w_in] in H. lia.
  - apply bind_Some in E; destruct E as (w & Ew & E). destruct (w_in w) as [|c rest] eqn:Ei; [discriminate|]. destruct (handle (w_env w) c) as [s1 m]. inversion E; subst cf'. cbn [c_main c_workers].
    pose proof (sum_set (fun w => length (w_in w)) _ _ (Worker s1 rest (w_out w ++ [m])) _ Ew) as H. cbn [w_in] in H. rewrite Ei in H. cbn [length] in H. lia.
Qed.
Lemma mu_moves : forall sched cf cf', moves cf sched = Some cf' -> length sched + mu cf' = mu cf.
Proof.
  induction sched as [|ch r IH]; intros cf cf' E; simpl in E; [inversion E; reflexivity|]. apply bind_Some in E. destruct E as (cf1 & E1 & E). apply IH in E. apply mu_move in E1. simpl. lia.
Qed.
Lemma mu_new ss prog : mu (config_new ss prog) = work_bound prog.
Proof. unfold mu, config_new. cbn [c_main c_workers]. rewrite map_map. cbn [w_in length]. assert (H : list_sum (map (fun _ : St => 0) ss) = 0) by (induction ss; simpl; auto). rewrite H. lia. Qed.

(** Programs of calls. *)
Definition balanced (prog : list instr) : Prop := forall p q i, prog = p ++ Recv i :: q -> occ i (recvd p) < length (sent i p).
Lemma pairs_recv n (op : @vop Act Req) : op_ok n op -> match op with OCall _ indices => indices | _ => seq 0 n end = map fst (op_pairs n op).
Proof.
  destruct op as [acts| |q idx]; cbn [op_ok op_pairs]; intros H.
  - rewrite <- (map_length (@CStep Act Req)) in H. revert H. generalize (map (@CStep Act Req) acts). intros l. generalize 0. revert l. induction n as [|n IH]; intros [|x l] k H; simpl in *; auto; try lia. f_equal. apply IH. lia.
  - rewrite map_map. cbn [fst]. rewrite map_id. auto.
  - rewrite map_map. cbn [fst]. rewrite map_id. auto.
Qed.
Lemma pairs_below n (op : @vop Act Req) : op_ok n op -> Forall (fun p => fst p < n) (op_pairs n op).
Proof.
  destruct op as [acts| |q idx]; cbn [op_ok op_pairs]; intros H; apply Forall_forall; intros [i c] Hp; cbn [fst].
  - apply in_combine_l in Hp. apply in_seq in Hp. lia.
  - apply in_map_iff in Hp. destruct Hp as (k & E & Hk). inversion E; subst. apply in_seq in Hk. lia.
  - apply in_map_iff in Hp. destruct Hp as (k & E & Hk). inversion E; subst. rewrite Forall_forall in H. auto.
Qed.
Lemma sent_sends i (ps : list (nat * cmd)) : sent i (sends_of ps) = commands i ps.
Proof. unfold sent, sends_of, commands. induction ps as [|[j c] ps IH]; simpl; auto. destruct (j =? i); simpl; rewrite IH; auto. Qed.
Lemma recvd_sends (ps : list (nat * cmd)) : recvd (sends_of ps) = [].
Proof. unfold recvd, sends_of. induction ps; simpl; auto. Qed.
Lemma sent_recvs i l : sent i (map Recv l) = [].
Proof. unfold sent. induction l; simpl; auto. Qed.
Lemma recvd_recvs l : recvd (map Recv l) = l.
Proof. unfold recvd. induction l; simpl; auto. f_equal. auto. Qed.
Lemma sent_compile i n (op : @vop Act Req) : sent i (compile n op) = commands i (op_pairs n op).
Proof. unfold compile. rewrite sent_app, sent_sends, sent_recvs, app_nil_r. auto. Qed.
Lemma recvd_compile n (op : @vop Act Req) : op_ok n op -> recvd (compile n op) = map fst (op_pairs n op).
Proof. intros H. unfold compile. rewrite recvd_app, recvd_sends, recvd_recvs. apply pairs_recv. auto. Qed.
Lemma sent_all i n (ops : list (@vop Act Req)) : sent i (compile_all n ops) = commands i (all_pairs n ops).
Proof. unfold compile_all, all_pairs. induction ops as [|op ops IH]; simpl; auto. rewrite sent_app, commands_app, sent_compile, IH. auto. Qed.
Lemma recvd_all n (ops : list (@vop Act Req)) : Forall (op_ok n) ops -> recvd (compile_all n ops) = map fst (all_pairs n ops).
Proof. unfold compile_all, all_pairs. induction 1 as [|op ops H _ IH]; simpl; auto. rewrite recvd_app, map_app, recvd_compile, IH; auto. Qed.
Lemma balanced_app p q : (forall i, occ i (recvd p) = length (sent i p)) -> balanced p -> balanced q -> balanced (p ++ q).
Proof.
  intros H Bp Bq u v i E.
  assert (X : (exists v', p = u ++ Recv i :: v') \/ (exists u', u = p ++ u' /\ q = u' ++ Recv i :: v)).
  { clear Bp Bq H. revert u E. induction p as [|x p IH]; intros u E.
    - right. exists u. auto.
    - destruct u as [|y u]; simpl in E; injection E as Ex Ey; subst; [left; exists p; reflexivity|]. destruct (IH u Ey) as [(v' & E2)|(u' & E2 & E3)]; [left; exists v'; simpl; rewrite E2; auto|right; exists u'; simpl; rewrite E2; auto]. }
  destruct X as [(v' & E2)|(u' & E2 & E3)]; [eapply Bp; eauto|]. subst u. rewrite recvd_app, sent_app, occ_app, app_length, H. specialize (Bq u' v i E3). lia.
Qed.
Lemma balanced_compile n (op : @vop Act Req) : op_ok n op -> balanced (compile n op).
Proof.
  intros H p q i E. unfold compile in E. rewrite (pairs_recv n op H) in E.
  assert (X : exists k, p = sends_of (op_pairs n op) ++ map Recv (firstn k (map fst (op_pairs n op))) /\ nth_error (map fst (op_pairs n op)) k = Some i).
  { revert E. generalize (map fst (op_pairs n op)) as l. unfold sends_of. generalize (op_pairs n op) as ps. intros ps. revert p. induction ps as [|x ps IH]; intros p l E.
    - cbn [map app] in *. revert p E. induction l as [|y l IHl]; intros [|z p] E; simpl in E; try discriminate; inversion E; subst.
      + exists 0. auto.
      + destruct (IHl p H2) as (k & E2 & E3). exists (S k). simpl. split; auto. congruence.
    - destruct p as [|y p]; simpl in E; inversion E; subst. destruct (IH p l H2) as (k & E2 & E3). exists k. split; auto. simpl. congruence. }
  destruct X as (k & -> & Ek). rewrite recvd_app, recvd_sends, recvd_recvs, sent_app, sent_sends, sent_recvs, app_nil_r. cbn [app]. rewrite <- occ_commands.
  pose proof (firstn_skipn k (map fst (op_pairs n op))) as Es. assert (Hs : skipn k (map fst (op_pairs n op)) = i :: skipn (S k) (map fst (op_pairs n op))).
  { revert Ek. clear. generalize (map fst (op_pairs n op)). intros l. revert k. induction l as [|x l IH]; intros [|k] E; simpl in *; try discriminate; [congruence|]. rewrite (IH k E). reflexivity. }
  rewrite <- Es at 2. rewrite Hs, occ_app. unfold occ at 3. cbn [filter]. rewrite Nat.eqb_refl. simpl. lia.
Qed.
Lemma balanced_all n (ops : list (@vop Act Req)) : Forall (op_ok n) ops -> balanced (compile_all n ops).
Proof.
  unfold compile_all. induction 1 as [|op ops H F IH]; simpl; [intros [|z p] q k E; discriminate|]. apply balanced_app; auto.
  - intros i. rewrite recvd_compile, sent_compile by auto. apply occ_commands.
  - apply balanced_compile. auto.
Qed.
Lemma compile_below n (ops : list (@vop Act Req)) i q p : Forall (op_ok n) ops -> (compile_all n ops = p ++ Recv i :: q \/ exists c, compile_all n ops = p ++ Send i c :: q) -> i < n.
Proof.
  intros F H. assert (X : forall x, In x (compile_all n ops) -> match x with Send j _ => j < n | Recv j => j < n end).
  { intros x Hx. unfold compile_all in Hx. apply in_flat_map in Hx. destruct Hx as (op & Ho & Hx). rewrite Forall_forall in F. specialize (F op Ho). pose proof (pairs_below n op F) as B. rewrite Forall_forall in B.
    unfold compile in Hx. apply in_app_or in Hx. destruct Hx as [Hx|Hx].
    - unfold sends_of in Hx. apply in_map_iff in Hx. destruct Hx as (pr & <- & Hp). auto.
    - rewrite (pairs_recv n op F) in Hx. apply in_map_iff in Hx. destruct Hx as (j & <- & Hj). apply in_map_iff in Hj. destruct Hj as (pr & <- & Hp). auto. }
  destruct H as [H|(c & H)].
  - apply (X (Recv i)). rewrite H. apply in_or_app. right. left. auto.
  - apply (X (Send i c)). rewrite H. apply in_or_app. right. left. auto.
Qed.

(** No deadlock. *)
Theorem no_deadlock ss ops sched cf : Forall (op_ok (length ss)) ops -> moves (config_new ss (compile_all (length ss) ops)) sched = Some cf ->
  c_main cf = [] \/ exists ch cf', move cf ch = Some cf'.
Proof.
  intros F E. assert (I : vinv ss (compile_all (length ss) ops) cf) by (eapply vinv_moves; eauto; apply vinv_new). destruct I as (p & Ep & Lw & Hw & _).
  destruct (c_main cf) as [|[i c|i] r] eqn:Em; [auto| |]; right.
  - assert (Hi : i < length ss) by (eapply compile_below; eauto). destruct (nth_error (c_workers cf) i) as [w|] eqn:Ew; [|apply nth_error_None in Ew; lia].
    exists Main. unfold Vec_Model.move. rewrite Em, Ew. cbn [bind]. eauto.
  - assert (Hi : i < length ss) by (eapply compile_below; eauto). destruct (nth_error (c_workers cf) i) as [w|] eqn:Ew; [|apply nth_error_None in Ew; lia].
    destruct (w_out w) as [|m o] eqn:Eo.
    + destruct (Hw i w Ew) as (s & pr & tk & H1 & H2 & H3 & H4 & H5). destruct (w_in w) as [|c rest] eqn:Ei.
      * exfalso. pose proof (balanced_all _ _ F p r i Ep) as B. rewrite H2, app_nil_r in B. rewrite Eo, app_nil_r in H4. apply (f_equal (@length _)) in H4. rewrite answers_len in H4. lia.
      * exists (Work i). unfold Vec_Model.move. rewrite Ew. cbn [bind]. rewrite Ei. destruct (handle (w_env w) c). eauto.
    + exists Main. unfold Vec_Model.move. rewrite Em, Ew. cbn [bind]. rewrite Eo. eauto.
Qed.
Theorem moves_bounded ss ops sched cf : moves (config_new ss (compile_all (length ss) ops)) sched = Some cf -> length sched <= work_bound (compile_all (length ss) ops).
Proof. intros E. apply mu_moves in E. rewrite mu_new in E. lia. Qed.

(** The sequential run over all calls. *)
Lemma dummy_seq : forall ops ss, Forall (op_ok (length ss)) ops -> exists ss' ms, seq_exec ss (all_pairs (length ss) ops) = Some (ss', ms) /\
  exists mss, dummy_run ss ops = Some (ss', mss) /\ concat mss = map cast ms.
Proof.
  induction ops as [|op ops IH]; intros ss F; cbn [all_pairs flat_map Vec_Model.dummy_run].
  - exists ss, []. split; auto. exists []. auto.
  - destruct (seq_spec (op_pairs (length ss) op) ss (pairs_below _ _ (Forall_inv F))) as (s1 & m1 & E1 & L1 & _).
    pose proof (Forall_inv_tail F) as Ft. rewrite <- L1 in Ft. destruct (IH s1 Ft) as (s2 & m2 & E2 & mss & E3 & C). rewrite L1 in E2.
    assert (Ed : dummy_op ss op = Some (s1, map cast m1)).
    { unfold Vec_Model.dummy_op. destruct op as [acts| |q idx]; rewrite ?E1; cbn [bind]; auto. pose proof (Forall_inv F) as Ha. cbn [op_ok] in Ha. replace (length acts <? length ss) with false by (symmetry; apply Nat.ltb_ge; auto). reflexivity. }
    rewrite seq_app, E1. cbn [bind]. unfold all_pairs in E2. rewrite E2. cbn [bind]. exists s2, (m1 ++ m2). split; auto. rewrite Ed. cbn [bind]. rewrite E3. cbn [bind]. exists (map cast m1 :: mss). split; auto. cbn [concat]. rewrite C, map_app. auto.
Qed.
Lemma all_below n (ops : list (@vop Act Req)) : Forall (op_ok n) ops -> Forall (fun p => fst p < n) (all_pairs n ops).
Proof. unfold all_pairs. induction 1 as [|op ops H _ IH]; simpl; [constructor|]. apply Forall_app. split; auto. apply pairs_below. auto. Qed.
Lemma ne_ext {X} : forall l l' : list X, length l = length l' -> (forall j, j < length l -> nth_error l j = nth_error l' j) -> l = l'.
Proof. induction l as [|x l IH]; intros [|y l'] L H; simpl in *; try discriminate; auto. f_equal; [specialize (H 0 ltac:(lia)); simpl in H; congruence|]. apply IH; [lia|]. intros j Hj. apply (H (S j)). lia. Qed.

(** Whatever the schedule, a finished run has received what the sequential one computes. *)
Theorem any_schedule ss ops sched cf : Forall (op_ok (length ss)) ops -> moves (config_new ss (compile_all (length ss) ops)) sched = Some cf -> c_main cf = [] ->
  exists ss' mss, dummy_run ss ops = Some (ss', mss) /\ map cast (c_got cf) = concat mss.
Proof.
  intros F E Em. assert (I : vinv ss (compile_all (length ss) ops) cf) by (eapply vinv_moves; eauto; apply vinv_new). destruct I as (p & Ep & Lw & _ & Lg & Hg).
  rewrite Em, app_nil_r in Ep. subst p. rewrite (recvd_all _ _ F) in *.
  destruct (dummy_seq ops ss F) as (ss' & ms & E1 & mss & E2 & C). exists ss', mss. split; auto. rewrite C. f_equal.
  destruct (seq_spec _ ss (all_below _ _ F)) as (ss2 & ms2 & E3 & _ & L2 & _ & H2). rewrite E1 in E3. inversion E3; subst ss2 ms2. rewrite map_length in Lg.
  apply ne_ext; [lia|]. intros j Hj. rewrite Lg in Hj. destruct (nth_error (all_pairs (length ss) ops) j) as [[i c]|] eqn:Ej; [|apply nth_error_None in Ej; lia].
  destruct (H2 j i c Ej) as (s & Es & Hs). destruct (Hg j i) as (s' & Es' & Hs'); [rewrite nth_error_map, Ej; reflexivity|]. rewrite <- Hs', <- Hs. rewrite Es in Es'. inversion Es'; subst s'. rewrite sent_all, firstn_map. reflexivity.
Qed.

(** Each environment answers as if it were alone. *)
Lemma alone_seq : forall ps ss ss' ms i s, seq_exec ss ps = Some (ss', ms) -> nth_error ss i = Some s ->
  answered i ps ms = answers s (commands i ps) /\ nth_error ss' i = Some (after s (commands i ps)).
Proof.
  unfold answered, commands. induction ps as [|[k c] ps IH]; intros ss ss' ms i s E Es; cbn [Vec_Model.seq_exec] in E; [inversion E; subst; auto|].
  apply bind_Some in E. destruct E as (sk & Ek & E). destruct (handle sk c) as [s1 m] eqn:Eh. apply bind_Some in E. destruct E as ([s2 ms2] & E2 & E). inversion E; subst ss' ms. cbn [combine filter fst].
  destruct (k =? i) eqn:Eki.
  - apply Nat.eqb_eq in Eki. subst k. rewrite Es in Ek. inversion Ek; subst sk. cbn [map snd Vec_Spec.answers]. rewrite Eh. destruct (IH _ _ _ i s1 E2) as [H1 H2]; [eapply ne_set_same; eauto|]. split; [rewrite H1; auto|]. cbn [after fold_left]. rewrite Eh. exact H2.
  - apply Nat.eqb_neq in Eki. eapply IH; eauto. rewrite ne_set_other; auto.
Qed.
Lemma answers_live cs : forall s, lives env_step env_reset env_call s cs (answers s cs).
Proof.
  induction cs as [|[a| |q] cs IH]; intros s; cbn [Vec_Spec.answers handle]; [constructor| | |].
  - destruct (env_step s a) as (s1 & (((o & r) & d) & i)) eqn:E. destruct d; [|econstructor; eauto]. destruct (env_reset s1) as (s2 & o2) eqn:E2. econstructor; eauto.
  - destruct (env_reset s) as (s1 & o) eqn:E. econstructor; eauto.
  - destruct (env_call s q) as (s1 & v) eqn:E. econstructor; eauto.
Qed.
Theorem dummy_alone ss ops : Forall (op_ok (length ss)) ops -> exists ss' mss ms, dummy_run ss ops = Some (ss', mss) /\ concat mss = map cast ms /\
  length ms = length (all_pairs (length ss) ops) /\ forall i s, nth_error ss i = Some s -> lives env_step env_reset env_call s (commands i (all_pairs (length ss) ops)) (answered i (all_pairs (length ss) ops) ms).
Proof.
  intros F. destruct (dummy_seq ops ss F) as (ss' & ms & E1 & mss & E2 & C). exists ss', mss, ms. split; auto. split; auto.
  destruct (seq_spec _ ss (all_below _ _ F)) as (ss2 & ms2 & E3 & _ & L2 & _ & _). rewrite E1 in E3. inversion E3; subst. split; auto. intros i s Es. rewrite (proj1 (alone_seq _ _ _ _ i s E1 Es)). apply answers_live.
Qed.
End Proofs.
