From Coq Require Import List Arith Lia Bool QArith.
From Verif Require Import Base BaseFacts Opt_Model Opt_Facts Opt_Facts2 Ret_Proofs Stack_Model Stack_Spec.
Import ListNotations.
Open Scope nat_scope.

Lemma skipn_app_len {X} (a b : list X) : skipn (length a) (a ++ b) = b.
Proof. induction a; simpl; auto. Qed.
Lemma skipn_S {X} (l : list X) : forall k, skipn (S k) l = tl (skipn k l).
Proof. induction l as [|x l IH]; intros [|k]; try reflexivity. exact (IH k). Qed.
Lemma tl_app {X} (a b : list X) : a <> [] -> tl (a ++ b) = tl a ++ b.
Proof. destruct a; simpl; congruence. Qed.
Lemma window_len {X} n (z : X) fs : length (window n z fs) = n.
Proof. unfold window. rewrite skipn_length, app_length, repeat_length. lia. Qed.
Lemma window_snoc {X} n (z : X) fs f : 0 < n -> window n z (fs ++ [f]) = tl (window n z fs) ++ [f].
Proof.
  intros H. unfold window. rewrite app_length, Nat.add_1_r, app_assoc, skipn_S.
  rewrite skipn_app. replace (length fs - length (repeat z n ++ fs)) with 0 by (rewrite app_length; lia). cbn [skipn]. apply tl_app.
  intros E. apply (f_equal (@length X)) in E. rewrite skipn_length, app_length, repeat_length in E. simpl in E. lia.
Qed.
Lemma nth_repeat_lt {X} (x d : X) k i : i < k -> nth i (repeat x k) d = x.
Proof. revert i. induction k as [|k IH]; intros [|i] H; simpl; try lia; auto. apply IH. lia. Qed.
Lemma nth_set_nth {X} (l : list X) i x d : i < length l -> nth i (set_nth l i x) d = x.
Proof. revert i. induction l as [|y l IH]; intros [|i] H; simpl in *; try lia; auto. apply IH. lia. Qed.
Lemma nth_set_nth_ne {X} (l : list X) i j x d : i <> j -> nth j (set_nth l i x) d = nth j l d.
Proof. revert i j. induction l as [|y l IH]; intros [|i] [|j] H; simpl in *; try lia; auto. Qed.
Lemma set_nth_len {X} (l : list X) i x : length (set_nth l i x) = length l.
Proof. revert i. induction l as [|y l IH]; intros [|i]; simpl; auto. Qed.

Section Proofs.
Context {A : Type} (zero : A) (envs m w n : nat).
Hypothesis N : 0 < n.
Notation zf := (repeat (repeat zero w) m).
Notation stk fs := (stacked zero m w n fs).

(** A row of the stack: the rows of the frames in the window. *)
Definition rw (r : nat) (fs : list (list (list A))) : list (list A) := map (fun f => nth r f []) (window n zf fs).
Lemma stk_row r fs : r < m -> nth r (stk fs) [] = concat (rw r fs).
Proof.
  intros H. unfold stacked. rewrite (nth_indep _ [] ((fun r => concat (map (fun f => nth r f []) (window n zf fs))) 0)) by (rewrite map_length, seq_length; auto).
  rewrite (map_nth (fun r => concat (map (fun f => nth r f []) (window n zf fs)))), seq_nth by auto. reflexivity.
Qed.
Lemma stk_len fs : length (stk fs) = m.
Proof. unfold stacked. rewrite map_length, seq_length. auto. Qed.
Definition frames_ok (fs : list (list (list A))) : Prop := Forall (shaped m w) fs.
Lemma zf_shaped : shaped m w zf.
Proof. split; [apply repeat_length|]. apply Forall_forall. intros row H. apply repeat_spec in H. subst. apply repeat_length. Qed.
Lemma window_ok fs : frames_ok fs -> Forall (shaped m w) (window n zf fs).
Proof.
  intros F. unfold window. apply Forall_forall. intros f H.
  assert (In f (repeat zf n ++ fs)). { rewrite <- (firstn_skipn (length fs) (repeat zf n ++ fs)). apply in_or_app. right. auto. }
  apply in_app_or in H0. destruct H0 as [H0|H0]; [apply repeat_spec in H0; subst; apply zf_shaped|]. unfold frames_ok in F. rewrite Forall_forall in F. auto.
Qed.
Lemma rw_ok r fs : r < m -> frames_ok fs -> Forall (fun row => length row = w) (rw r fs).
Proof.
  intros H F. apply window_ok in F. unfold rw. apply Forall_forall. intros row Hr. apply in_map_iff in Hr. destruct Hr as (f & <- & Hf).
  rewrite Forall_forall in F. destruct (F f Hf) as [L Fr]. rewrite Forall_forall in Fr. apply Fr. apply nth_In. lia.
Qed.
Lemma rw_len r fs : length (rw r fs) = n.
Proof. unfold rw. rewrite map_length. apply window_len. Qed.
Lemma concat_w (l : list (list A)) : Forall (fun row => length row = w) l -> length (concat l) = length l * w.
Proof. induction 1 as [|row l H _ IH]; simpl; auto. rewrite app_length. lia. Qed.
Lemma row_len r fs : r < m -> frames_ok fs -> length (concat (rw r fs)) = n * w.
Proof. intros H F. rewrite concat_w by (apply rw_ok; auto). rewrite rw_len. auto. Qed.

(** Rolling a row moves its first frame to the end. *)
Lemma roll_rows (l : list (list A)) : l <> [] -> Forall (fun row => length row = w) l -> roll w (concat l) = concat (tl l) ++ hd [] l.
Proof.
  intros H F. destruct l as [|x l]; [congruence|]. pose proof (Forall_inv F) as Hx. pose proof (Forall_inv_tail F) as Fl. cbv beta in Hx. cbn [tl hd concat]. unfold roll.
  rewrite app_length, (concat_w l Fl), Hx. destruct (Nat.eq_dec w 0) as [Hw|Hw].
  - rewrite Hw in Hx |- *. destruct x; [|discriminate]. assert (E : concat l = []) by (apply length_zero_iff_nil; rewrite (concat_w l Fl), Hw; lia). rewrite E. cbn [app]. rewrite skipn_nil, firstn_nil. reflexivity.
  - destruct l as [|y l].
    + simpl. rewrite Nat.add_0_r, Nat.mod_same, app_nil_r by auto. simpl. rewrite app_nil_r. reflexivity.
    + rewrite Nat.mod_small by (cbn [length]; nia). rewrite <- Hx, skipn_app_len. f_equal. rewrite firstn_app, Nat.sub_diag, firstn_all. simpl. apply app_nil_r.
Qed.
Lemma put_rows (l : list (list A)) x new : length x = w -> put_last w (concat l ++ x) new = concat l ++ new.
Proof.
  intros H. unfold put_last. rewrite app_length, H. replace (length (concat l) + w - w) with (length (concat l)) by lia. rewrite firstn_app, Nat.sub_diag, firstn_all. simpl. rewrite app_nil_r. reflexivity.
Qed.
Lemma rw_snoc r fs f : rw r (fs ++ [f]) = tl (rw r fs) ++ [nth r f []].
Proof. unfold rw. rewrite window_snoc by auto. rewrite map_app. f_equal. generalize (window n zf fs). intros l. destruct l; reflexivity. Qed.
Lemma stk_snoc_row r fs f : r < m -> frames_ok fs -> put_last w (roll w (concat (rw r fs))) (nth r f []) = concat (rw r (fs ++ [f])).
Proof.
  intros H F. pose proof (rw_len r fs) as L. pose proof (rw_ok r fs H F) as Fr. assert (Hne : rw r fs <> []) by (intros E; rewrite E in L; simpl in L; lia).
  rewrite roll_rows by auto. rewrite put_rows.
  - rewrite rw_snoc, concat_app. cbn [concat]. rewrite app_nil_r. reflexivity.
  - destruct (rw r fs); [congruence|]. exact (Forall_inv Fr).
Qed.
Lemma zeros_repeat (row : list A) : zeros zero row = repeat zero (length row).
Proof. unfold zeros. induction row; simpl; congruence. Qed.
Lemma roll_len k (row : list A) : length (roll k row) = length row.
Proof. unfold roll. rewrite app_length, Nat.add_comm, <- app_length, firstn_skipn. auto. Qed.
Lemma concat_zeros k : concat (repeat (repeat zero w) k) = repeat zero (k * w).
Proof. induction k as [|k IH]; simpl; auto. rewrite IH, repeat_app. reflexivity. Qed.
Lemma rw_nil r : r < m -> rw r [] = repeat (repeat zero w) n.
Proof.
  intros H. unfold rw, window. cbn [length skipn]. rewrite app_nil_r. clear N. induction n as [|k IH]; cbn [repeat map]; auto. f_equal; auto.
  rewrite nth_repeat_lt; auto.
Qed.
Lemma put_zero r f : r < m -> put_last w (repeat zero (n * w)) (nth r f []) = concat (rw r ([] ++ [f])).
Proof.
  intros H. rewrite rw_snoc, concat_app, rw_nil by auto. cbn [concat]. rewrite app_nil_r. unfold put_last. rewrite repeat_length. f_equal.
  destruct n as [|k]; [lia|]. cbn [repeat tl]. rewrite concat_zeros. replace (S k * w - w) with (k * w) by lia. replace (S k * w) with (k * w + w) by lia. rewrite repeat_app, firstn_app, repeat_length, Nat.sub_diag. cbn [firstn]. rewrite app_nil_r.
  rewrite firstn_all2; auto. rewrite repeat_length. auto.
Qed.
(** Equality of stacked frames, row by row. *)
Lemma stk_ext (x : list (list A)) fs : length x = m -> (forall r, r < m -> nth r x [] = concat (rw r fs)) -> x = stk fs.
Proof. intros L H. apply nth_ext with (d := []) (d' := []); rewrite ?stk_len; auto. intros r Hr. rewrite stk_row by lia. apply H. lia. Qed.

Lemma env_step fs obs done term : frames_ok fs -> shaped m w obs -> (forall f, term = Some f -> shaped m w f) ->
  stack_env zero w (stk fs) obs done term =
  (if done then stk ([] ++ [obs]) else stk (fs ++ [obs]),
   if done then match term with Some t => Some (stk (fs ++ [t])) | None => None end else term).
Proof.
  intros F [Lo Fo] Ht. unfold stack_env.
  assert (X : forall f, shaped m w f -> map2 (put_last w) (map (roll w) (stk fs)) f = stk (fs ++ [f])).
  { intros f [Lf _]. apply stk_ext; [rewrite map2_len, map_length, stk_len, Lf; lia|]. intros r Hr.
    rewrite (nth_map2 _ [] [] []) by (rewrite ?map_length, ?stk_len; lia). rewrite (nth_map' _ [] []) by (rewrite stk_len; lia). rewrite stk_row by auto. apply stk_snoc_row; auto. }
  f_equal.
  - destruct done; [|apply X; split; auto].
    apply stk_ext; [rewrite map2_len, !map_length, stk_len, Lo; lia|]. intros r Hr.
    rewrite (nth_map2 _ [] [] []) by (rewrite ?map_length, ?stk_len; lia). rewrite (nth_map' _ [] []) by (rewrite map_length, stk_len; lia).
    rewrite (nth_map' _ [] []) by (rewrite stk_len; lia). rewrite stk_row by auto. rewrite zeros_repeat, roll_len, row_len by auto. apply put_zero. auto.
  - destruct done; auto. destruct term as [t|]; auto. rewrite X; auto.
Qed.
Lemma env_reset fs obs : frames_ok fs -> shaped m w obs -> map2 (put_last w) (map (zeros zero) (stk fs)) obs = stk ([] ++ [obs]).
Proof.
  intros F [Lo Fo]. apply stk_ext; [rewrite map2_len, !map_length, stk_len, Lo; lia|]. intros r Hr.
  rewrite (nth_map2 _ [] [] []) by (rewrite ?map_length, ?stk_len; lia).
  rewrite (nth_map' _ [] []) by (rewrite stk_len; lia). rewrite stk_row by auto. rewrite zeros_repeat, row_len by auto. apply put_zero. auto.
Qed.

(** All environments. *)
Lemma envs_len (st obs : list (list (list A))) dones terms : length obs = length st -> length dones = length st -> length terms = length st -> length (stack_envs zero w st obs dones terms) = length st.
Proof.
  revert obs dones terms. induction st as [|s st IH]; intros [|o obs] [|d dones] [|t terms] H1 H2 H3; simpl in *; try lia. f_equal. apply IH; lia.
Qed.
Lemma envs_nth : forall (st obs : list (list (list A))) dones terms i, i < length st -> length obs = length st -> length dones = length st -> length terms = length st ->
  nth i (stack_envs zero w st obs dones terms) ([], None) = stack_env zero w (nth i st []) (nth i obs []) (nth i dones false) (nth i terms None).
Proof.
  induction st as [|s st IH]; intros [|o obs] [|d dones] [|t terms] [|i] Hi H1 H2 H3; simpl in *; try lia; auto. apply IH; lia.
Qed.

Definition sinv (es : list sev) (s : @fstack A) : Prop :=
  fs_cur s < length (fs_heap s) /\ length (nth (fs_cur s) (fs_heap s) []) = envs /\
  forall i, i < envs -> nth i (nth (fs_cur s) (fs_heap s) []) [] = stk (frames i es) /\ frames_ok (frames i es).
Lemma sinv_new : sinv [] (stack_new zero envs m w n).
Proof.
  unfold sinv, stack_new. cbn [fs_cur fs_heap length nth]. split; [lia|]. split; [apply repeat_length|]. intros i Hi. cbn [frames fold_left]. split; [|constructor].
  rewrite nth_repeat_lt by auto. apply stk_ext; [apply repeat_length|]. intros r Hr. rewrite nth_repeat_lt by auto. rewrite rw_nil by auto. rewrite concat_zeros. f_equal. lia.
Qed.
Lemma call_inv es e s : sinv es s -> call_ok envs m w e -> sinv (es ++ [e]) (fst (stack_call zero w s e)) /\ fst (snd (stack_call zero w s e)) = fs_cur (fst (stack_call zero w s e)) /\
  forall i, i < envs -> terminal_ok zero m w n i es e (snd (snd (stack_call zero w s e))).
Proof.
  intros (Hc & Hl & H) Hok. unfold stack_call. set (arr := nth (fs_cur s) (fs_heap s) []) in *. destruct e as [obs|obs dones terms]; cbn [call_ok] in Hok; cbn [fst snd].
  - destruct Hok as (Lo & Fo). split; [|split; auto; intros i Hi; reflexivity].
    unfold sinv. cbn [fs_cur fs_heap]. rewrite set_nth_len. split; auto. rewrite nth_set_nth by auto. split; [rewrite map2_len, map_length; lia|]. intros i Hi.
    unfold frames. rewrite fold_left_app. cbn [fold_left frames_after]. destruct (H i Hi) as [E F]. assert (So : shaped m w (nth i obs [])) by (rewrite Forall_forall in Fo; apply Fo, nth_In; lia).
    split; [|constructor; auto]. rewrite (nth_map2 _ [] [] []) by (rewrite ?map_length; lia). rewrite (nth_map' _ [] []) by lia. rewrite E. exact (env_reset (frames i es) _ F So).
  - destruct Hok as (Lo & Fo & Ld & Lt & Ft).
    assert (X : forall i, i < envs -> nth i (stack_envs zero w arr obs dones terms) ([], None) = stack_env zero w (stk (frames i es)) (nth i obs []) (nth i dones false) (nth i terms None)).
    { intros i Hi. rewrite envs_nth by lia. destruct (H i Hi) as [E _]. rewrite E. reflexivity. }
    assert (Y : forall i, i < envs -> shaped m w (nth i obs []) /\ (forall f, nth i terms None = Some f -> shaped m w f)).
    { intros i Hi. rewrite Forall_forall in Fo, Ft. split; [apply Fo, nth_In; lia|]. apply Ft, nth_In. lia. }
    assert (L : length (stack_envs zero w arr obs dones terms) = envs) by (rewrite envs_len; lia).
    split; [|split; auto].
    + unfold sinv. cbn [fs_cur fs_heap]. rewrite app_length. split; [simpl; lia|]. rewrite app_nth2, Nat.sub_diag by lia. cbn [nth]. split; [rewrite map_length; auto|]. intros i Hi.
      unfold frames. rewrite fold_left_app. cbn [fold_left frames_after]. destruct (H i Hi) as [E F]. destruct (Y i Hi) as [So St].
      rewrite (nth_map' fst [] ([], None)) by lia. rewrite X by auto. rewrite env_step by auto. cbn [fst]. unfold frames in *.
      destruct (nth i dones false); (split; [reflexivity|]); [constructor; auto|]. apply Forall_app. split; auto.
    + intros i Hi. destruct (H i Hi) as [E F]. destruct (Y i Hi) as [So St]. cbn [terminal_ok]. rewrite (nth_map' snd None ([], None)) by lia. rewrite X by auto. rewrite env_step by auto. cbn [snd]. reflexivity.
Qed.
Lemma calls_app : forall es es' s, stack_calls zero w s (es ++ es') =
  let '(s1, o1) := stack_calls zero w s es in let '(s2, o2) := stack_calls zero w s1 es' in (s2, o1 ++ o2).
Proof.
  induction es as [|e es IH]; intros es' s; simpl.
  - destruct (stack_calls zero w s es'); reflexivity.
  - destruct (stack_call zero w s e) as [s1 o]. rewrite IH. destruct (stack_calls zero w s1 es) as [s2 os]. destruct (stack_calls zero w s2 es') as [s3 os']. reflexivity.
Qed.
Lemma calls_inv : forall es s pre, sinv pre s -> Forall (call_ok envs m w) es -> sinv (pre ++ es) (fst (stack_calls zero w s es)).
Proof.
  induction es as [|e es IH]; intros s pre I F; simpl; [rewrite app_nil_r; auto|].
  destruct (call_inv pre e s I (Forall_inv F)) as (I1 & _). destruct (stack_call zero w s e) as [s1 o]. cbn [fst] in *. specialize (IH s1 (pre ++ [e]) I1 (Forall_inv_tail F)).
  destruct (stack_calls zero w s1 es) as [s2 os]. cbn [fst] in *. rewrite <- app_assoc in IH. exact IH.
Qed.

(** What a call after any history hands out. *)
Theorem stack_correct es e : Forall (call_ok envs m w) es -> call_ok envs m w e ->
  let s := fst (stack_calls zero w (stack_new zero envs m w n) es) in
  let '(s', (ref, infos)) := stack_call zero w s e in
  length (nth ref (fs_heap s') []) = envs /\
  forall i, i < envs -> nth i (nth ref (fs_heap s') []) [] = stk (frames i (es ++ [e])) /\ terminal_ok zero m w n i es e infos.
Proof.
  intros F Fe. pose proof (calls_inv es _ [] sinv_new F) as I. cbn [app] in I. cbv zeta. set (s := fst (stack_calls zero w (stack_new zero envs m w n) es)) in *.
  destruct (call_inv es e s I Fe) as (I1 & Hr & Ht). destruct (stack_call zero w s e) as [s' [ref infos]]. cbn [fst snd] in *. subst ref. destruct I1 as (H1 & H2 & H3).
  split; auto. intros i Hi. split; [apply H3; auto|apply Ht; auto].
Qed.

(** Steps never touch an array handed out before. *)
Lemma steps_stable : forall es s ref, Forall (fun e => match e with SStep _ _ _ => True | SReset _ => False end) es -> ref < length (fs_heap s) ->
  nth ref (fs_heap (fst (stack_calls zero w s es))) [] = nth ref (fs_heap s) [].
Proof.
  induction es as [|e es IH]; intros s ref F H; simpl; auto. pose proof (Forall_inv F) as Fe. destruct e as [obs|obs dones terms]; [destruct Fe|].
  unfold stack_call. specialize (IH (FStack (fs_heap s ++ [map fst (stack_envs zero w (nth (fs_cur s) (fs_heap s) []) obs dones terms)]) (length (fs_heap s))) ref (Forall_inv_tail F)).
  cbn [fs_heap fs_cur] in *. rewrite app_length in IH. specialize (IH ltac:(lia)). destruct (stack_calls zero w _ es) as [s2 os]. cbn [fst] in *. rewrite IH. apply app_nth1. auto.
Qed.
Theorem stack_stable es e later : Forall (call_ok envs m w) es -> call_ok envs m w e ->
  Forall (fun e => match e with SStep _ _ _ => True | SReset _ => False end) later ->
  let s := fst (stack_calls zero w (stack_new zero envs m w n) es) in
  let '(s', (ref, _)) := stack_call zero w s e in
  nth ref (fs_heap (fst (stack_calls zero w s' later))) [] = nth ref (fs_heap s') [].
Proof.
  intros F Fe Fl. pose proof (calls_inv es _ [] sinv_new F) as I. cbn [app] in I. cbv zeta. set (s := fst (stack_calls zero w (stack_new zero envs m w n) es)) in *.
  destruct (call_inv es e s I Fe) as (I1 & Hr & Ht). destruct (stack_call zero w s e) as [s' [ref infos]]. cbn [fst snd] in *. subst ref. apply steps_stable; auto. apply I1.
Qed.
End Proofs.

(** The announced bounds, when they are the same along the last axis. *)
Lemma repeat_axis_const {B} n w (x : B) : repeat_axis n (repeat x w) = repeat x (w * n).
Proof. unfold repeat_axis. induction w as [|w IH]; simpl; auto. rewrite IH, <- repeat_app. reflexivity. Qed.
Lemma in_row_const lo hi row k : length row = k -> Forall (fun x => lo <= x /\ x <= hi)%Q row -> in_row (repeat lo k) (repeat hi k) row.
Proof.
  intros L F. revert k L. induction F as [|x row [H1 H2] _ IH]; intros [|k] L; simpl in L; try discriminate; split; simpl; constructor; auto; apply (IH k); lia.
Qed.
Theorem space_ok m w n lo hi fs : 0 < n -> Forall (shaped m w) fs -> (forall r, r < m -> (lo r <= 0 /\ 0 <= hi r)%Q) ->
  Forall (fun f => forall r, r < m -> Forall (fun x => lo r <= x /\ x <= hi r)%Q (nth r f [])) fs ->
  forall r, r < m -> in_row (repeat_axis n (repeat (lo r) w)) (repeat_axis n (repeat (hi r) w)) (nth r (stacked 0%Q m w n fs) []).
Proof.
  intros N Sh Z F r Hr. rewrite !repeat_axis_const. rewrite stk_row by auto. apply in_row_const.
  - rewrite row_len by auto. lia.
  - apply Forall_forall. intros x Hx. apply in_concat in Hx. destruct Hx as (row & Hrow & Hx). unfold rw in Hrow. apply in_map_iff in Hrow. destruct Hrow as (f & <- & Hf). unfold window in Hf.
    assert (In f (repeat (repeat (repeat 0%Q w) m) n ++ fs)). { rewrite <- (firstn_skipn (length fs) (repeat _ n ++ fs)). apply in_or_app. right. exact Hf. }
    apply in_app_or in H. destruct H as [H|H].
    + apply repeat_spec in H. subst f. rewrite nth_repeat_lt in Hx by auto. apply repeat_spec in Hx. subst x. auto.
    + rewrite Forall_forall in F. specialize (F f H r Hr). rewrite Forall_forall in F. auto.
Qed.
