From Coq Require Import List Arith ZArith QArith Lia Lqa Bool.
From Verif Require Import Base BaseFacts Opt_Model Opt_Facts Opt_Facts2 Ret_Model Ret_Spec Ret_Proofs.
Import ListNotations.
Open Scope nat_scope.

(** * discount_with_dones and discount *)
Lemma last_cons_def {A} (l : list A) : forall y d, last (y :: l) d = last l y.
Proof. induction l as [|x l IH]; intros y d; [reflexivity|]. change (last (y :: x :: l) d) with (last (x :: l) d). rewrite !IH. reflexivity. Qed.
Lemma dwd_snoc g x d : forall l ret, dwd_loop g ret (l ++ [(x, d)]) = dwd_loop g ret l ++ [(x + g * last (dwd_loop g ret l) ret * (1 - b2q d))%Q].
Proof.
  induction l as [|[a b] l IH]; intros ret; [reflexivity|]. cbn [app dwd_loop]. rewrite IH. rewrite last_cons_def. reflexivity.
Qed.
Lemma dwd_cons g x d rs ds : length rs = length ds -> discount_with_dones (x :: rs) (d :: ds) g =
  (x + g * hd 0 (discount_with_dones rs ds g) * (1 - b2q d))%Q :: discount_with_dones rs ds g.
Proof.
  intros L. unfold discount_with_dones. cbn [rev].
  assert (C : forall (a : list Q) (b : list bool), length a = length b -> combine (a ++ [x]) (b ++ [d]) = combine a b ++ [(x, d)]).
  { induction a as [|y a IH]; intros [|z b] H; simpl in *; try discriminate; auto. f_equal. apply IH. congruence. }
  rewrite C by (rewrite !rev_length; auto). rewrite dwd_snoc, rev_app_distr. cbn [rev app]. f_equal. f_equal. f_equal. f_equal.
  set (l := dwd_loop g 0 _). destruct l as [|y l] using rev_ind; [reflexivity|]. rewrite last_last, rev_app_distr. reflexivity.
Qed.
Lemma dwd_length g : forall rs ds, length rs = length ds -> length (discount_with_dones rs ds g) = length rs.
Proof. induction rs as [|x rs IH]; intros [|d ds] L; simpl in L; try discriminate; auto. rewrite dwd_cons by congruence. simpl. rewrite IH; auto. Qed.
Lemma dwd_rec g : forall rs ds, length rs = length ds -> forall t, t < length rs ->
  (nth t (discount_with_dones rs ds g) 0 == nth t rs 0 + g * (if nth t ds false then 0 else nth (S t) (discount_with_dones rs ds g) 0))%Q.
Proof.
  induction rs as [|x rs IH]; intros [|d ds] L t Ht; simpl in L, Ht; try lia. rewrite dwd_cons by congruence. destruct t as [|t].
  - cbn [nth]. destruct (discount_with_dones rs ds g); destruct d; simpl; ring.
  - cbn [nth]. apply IH; lia.
Qed.
Theorem dwd_exact g rs ds t : length rs = length ds -> t < length rs -> exists h, horizon (length rs) (fun s => nth s ds false) t h /\
  (nth t (discount_with_dones rs ds g) 0 == dsum g (fun s => nth s rs 0%Q) t (h - t))%Q.
Proof.
  intros L Ht. destruct (horizon_exists (length rs) (fun s => nth s ds false) t Ht) as (h & H). exists h. split; auto.
  rewrite (cut_dsum (length rs) g (fun s => nth s rs 0%Q) (fun s => nth s (discount_with_dones rs ds g) 0%Q) _ t h (dwd_rec g rs ds L) H).
  unfold ret_spec. destruct (nth h ds false); [ring|]. rewrite (nth_overflow (discount_with_dones rs ds g)) by (rewrite dwd_length; auto). ring.
Qed.

Lemma lfilter_dwd g : forall x p, Forall2 Qeq (lfilter g p x) (dwd_loop g p (map (fun a => (a, false)) x)).
Proof.
  assert (C : forall x p q, (p == q)%Q -> Forall2 Qeq (lfilter g p x) (dwd_loop g q (map (fun a => (a, false)) x))).
  { induction x as [|a x IH]; intros p q H; simpl; constructor.
    - rewrite H. ring.
    - apply IH. rewrite H. ring. }
  intros. apply C. reflexivity.
Qed.
Lemma Forall2_rev {A B} (R : A -> B -> Prop) l l' : Forall2 R l l' -> Forall2 R (rev l) (rev l').
Proof. induction 1; simpl; [constructor|]. apply Forall2_app; auto. Qed.
Lemma Forall2_nthQ l l' t : Forall2 Qeq l l' -> (nth t l 0 == nth t l' 0)%Q.
Proof. intros H. revert t. induction H; intros [|t]; simpl; auto; reflexivity. Qed.
Lemma discount_dwd x g : Forall2 Qeq (discount x g) (discount_with_dones x (map (fun _ => false) x) g).
Proof.
  unfold discount, discount_with_dones. apply Forall2_rev.
  replace (combine (rev x) (rev (map (fun _ => false) x))) with (map (fun a => (a, false)) (rev x)); [apply lfilter_dwd|].
  rewrite <- map_rev. generalize (rev x). induction l as [|a l IH]; simpl; congruence.
Qed.
Theorem discount_exact x g : length (discount x g) = length x /\
  forall t, t < length x -> (nth t (discount x g) 0 == dsum g (fun s => nth s x 0%Q) t (length x - 1 - t))%Q.
Proof.
  pose proof (discount_dwd x g) as D. assert (L : length x = length (map (fun _ : Q => false) x)) by (rewrite map_length; auto). split.
  - rewrite <- (dwd_length g x _ L). clear L. induction D; simpl; auto.
  - intros t Ht. rewrite (Forall2_nthQ _ _ t D). destruct (dwd_exact g x _ t L Ht) as (h & (H1 & _ & H3) & E). rewrite E.
    assert (F : forall s, nth s (map (fun _ : Q => false) x) false = false).
    { intros s. clear. revert s. induction x; intros [|s]; simpl; auto. }
    rewrite F in H3. destruct H3 as [H3|H3]; [discriminate|]. subst h. reflexivity.
Qed.

(** * discount_with_boundaries *)
Definition dwb_step (g : Q) (rewards : list Q) (starts : list bool) (acc : option (list Q)) (step : nat) : option (list Q) :=
  let* a := acc in let* x := nth_error rewards step in let* s := nth_error starts (step + 1) in let* y := nth_error a 0 in Some ((x + g * y * (1 - b2q s))%Q :: a).
Lemma dwb_loop g rewards starts : forall m y rest, m < length rewards -> m < length starts ->
  exists l, fold_left (dwb_step g rewards starts) (rev (seq 0 m)) (Some (y :: rest)) = Some (l ++ y :: rest) /\ length l = m /\
    forall t, t < m -> (nth t (l ++ [y]) 0 == nth t rewards 0 + g * (if nth (S t) starts false then 0 else nth (S t) (l ++ [y]) 0))%Q.
Proof.
  induction m as [|m IH]; intros y rest H1 H2.
  - exists []. simpl. repeat split; auto. intros; lia.
  - rewrite seq_S, rev_app_distr. cbn [rev app fold_left Nat.add].
    destruct (nth_error rewards m) as [x|] eqn:Ex; [|apply nth_error_None in Ex; lia].
    destruct (nth_error starts (m + 1)) as [s|] eqn:Es; [|apply nth_error_None in Es; lia].
    set (z := (x + g * y * (1 - b2q s))%Q).
    replace (dwb_step g rewards starts (Some (y :: rest)) m) with (Some (z :: y :: rest)) by (unfold dwb_step; cbn [bind]; rewrite Ex; cbn [bind]; rewrite Es; reflexivity). destruct (IH z (y :: rest)) as (l & E & L & R); try lia.
    exists (l ++ [z]). split; [|split].
    + rewrite E, <- app_assoc. reflexivity.
    + rewrite app_length. simpl. lia.
    + intros t Ht. destruct (Nat.eq_dec t m) as [->|N].
      * rewrite (app_nth1 (l ++ [z])) by (rewrite app_length; simpl; lia). rewrite app_nth2 by lia. rewrite L, Nat.sub_diag. cbn [nth].
        rewrite app_nth2 by (rewrite app_length; simpl; lia). replace (S m - length (l ++ [z])) with 0 by (rewrite app_length; cbn [length]; lia). cbn [nth].
        rewrite (nth_error_nth _ _ 0%Q Ex). rewrite Nat.add_1_r in Es. rewrite (nth_error_nth _ _ false Es). unfold z. destruct s; simpl; ring.
      * rewrite !(app_nth1 (l ++ [z])) by (rewrite app_length; simpl; lia). apply R. lia.
Qed.
Theorem dwb_exact rewards starts g : rewards <> [] -> length starts = length rewards ->
  exists y, discount_with_boundaries rewards starts g = Some y /\ length y = length rewards /\
    forall t, t < length rewards -> exists h, horizon (length rewards) (fun s => nth (S s) starts false) t h /\
      (nth t y 0 == dsum g (fun s => nth s rewards 0%Q) t (h - t))%Q.
Proof.
  intros N L. assert (P : 0 < length rewards) by (destruct rewards; [congruence|simpl; lia]). unfold discount_with_boundaries.
  destruct (nth_error rewards (length rewards - 1)) as [x|] eqn:Ex; [|apply nth_error_None in Ex; lia]. cbn [bind].
  destruct (dwb_loop g rewards starts (length rewards - 1) x []) as (l & E & Ll & R); try lia. unfold dwb_step in E. rewrite E. cbn [bind].
  exists (l ++ [x]). split; auto. split; [rewrite app_length; simpl; lia|]. intros t Ht.
  destruct (horizon_exists (length rewards) (fun s => nth (S s) starts false) t Ht) as (h & H). exists h. split; auto.
  rewrite (cut_dsum (length rewards) g (fun s => nth s rewards 0%Q) (fun s => nth s (l ++ [x]) 0%Q) (fun s => nth (S s) starts false) t h); auto.
  - unfold ret_spec. rewrite (nth_overflow (l ++ [x])) by (rewrite app_length; simpl; lia). destruct (nth (S h) starts false); ring.
  - intros s Hs. destruct (Nat.eq_dec s (length rewards - 1)) as [->|Ns]; [|apply R; lia].
    rewrite app_nth2 by lia. rewrite Ll, Nat.sub_diag. cbn [nth]. rewrite (nth_error_nth _ _ 0%Q Ex).
    rewrite (nth_overflow (l ++ [x])) by (rewrite app_length; simpl; lia). destruct (nth _ starts false); ring.
Qed.
Theorem dwb_empty starts g : discount_with_boundaries [] starts g = None.
Proof. reflexivity. Qed.

(** * A2C *)
Lemma last_nth {A} (l : list A) d : last l d = nth (length l - 1) l d.
Proof. destruct l as [|x l] using rev_ind; [reflexivity|]. rewrite last_last, app_length, app_nth2 by (simpl; lia). simpl. replace (length l + 1 - 1 - length l) with 0 by lia. reflexivity. Qed.
Lemma nth_removelast {A} (l : list A) d t : t < length l - 1 -> nth t (removelast l) d = nth t l d.
Proof. destruct l as [|x l] using rev_ind; [simpl; lia|]. rewrite removelast_last, app_length. simpl. intros H. rewrite app_nth1 by lia. reflexivity. Qed.
Lemma removelast_len {A} (l : list A) : length (removelast l) = length l - 1.
Proof. destruct l as [|x l] using rev_ind; [reflexivity|]. rewrite removelast_last, app_length. simpl. lia. Qed.
Lemma a2c_env_exact g rs ds v : rs <> [] -> length rs = length ds ->
  exists y, a2c_env g rs ds v = Some y /\ length y = length rs /\
    forall t, t < length rs -> exists h, horizon (length rs) (fun s => nth s ds false) t h /\
      (nth t y 0 == ret_spec g (fun s => nth s rs 0%Q) (fun s => nth s ds false) v t h)%Q.
Proof.
  intros N L. assert (P : 0 < length rs) by (destruct rs; [congruence|simpl; lia]). unfold a2c_env.
  destruct (nth_error ds (length ds - 1)) as [d|] eqn:Ed; [|apply nth_error_None in Ed; lia]. cbn [bind].
  eexists. split; [reflexivity|]. destruct d.
  - split; [apply dwd_length; auto|]. intros t Ht. destruct (dwd_exact g rs ds t L Ht) as (h & H & E). exists h. split; auto. rewrite E. unfold ret_spec.
    destruct H as (H1 & H2 & H3). replace (nth h ds false) with true; [ring|]. destruct H3 as [H3| ->]; [congruence|]. rewrite L.
    rewrite (nth_error_nth _ _ false Ed). reflexivity.
  - assert (L2 : length (rs ++ [v]) = length (ds ++ [false])) by (rewrite !app_length; simpl; lia).
    pose proof (dwd_length g _ _ L2) as L3. rewrite app_length in L3. simpl in L3. split.
    + rewrite removelast_len. lia.
    + intros t Ht. destruct (horizon_exists (length rs) (fun s => nth s ds false) t Ht) as (h & H). exists h. split; auto.
      set (y := discount_with_dones (rs ++ [v]) (ds ++ [false]) g) in *. rewrite nth_removelast by lia.
      assert (R : forall s, s < length rs -> (nth s y 0 == nth s rs 0 + g * (if nth s ds false then 0 else nth (S s) y 0))%Q).
      { intros s Hs. pose proof (dwd_rec g _ _ L2 s ltac:(rewrite app_length; simpl; lia)) as R. fold y in R. rewrite R.
        rewrite app_nth1 by lia. rewrite app_nth1 by lia. reflexivity. }
      rewrite (cut_dsum (length rs) g (fun s => nth s rs 0%Q) (fun s => nth s y 0%Q) (fun s => nth s ds false) t h R H). unfold ret_spec.
      destruct (nth h ds false); [reflexivity|].
      assert (Y : (nth (length rs) y 0 == v)%Q).
      { pose proof (dwd_rec g _ _ L2 (length rs) ltac:(rewrite app_length; simpl; lia)) as R'. fold y in R'. rewrite R'.
        rewrite app_nth2 by lia. rewrite app_nth2 by lia. rewrite L, Nat.sub_diag. cbn [nth]. rewrite (nth_overflow y) by lia. ring. }
      rewrite Y. reflexivity.
Qed.
Lemma traverse_each {A B} (f : A -> option B) (P : A -> B -> Prop) : forall l i, (forall a, In a l -> exists b, f a = Some b /\ P a b) ->
  exists bs, traverse (fun _ => f) i l = Some bs /\ Forall2 P l bs.
Proof.
  induction l as [|a l IH]; intros i H; simpl; [eexists; split; [reflexivity|constructor]|].
  destruct (H a (or_introl eq_refl)) as (b & E & Pb). rewrite E. cbn [bind]. destruct (IH (S i)) as (bs & E2 & F); [intros; apply H; right; auto|].
  rewrite E2. cbn [bind]. eauto.
Qed.
Theorem a2c_exact g n k rews dones lastv : 0 < n -> rect n k rews -> rect (S n) k dones -> length lastv = k ->
  exists l, a2c_returns g k rews dones lastv = Some l /\ length l = k * n /\
    forall t e, t < n -> e < k -> exists h, horizon n (fun s => entry false dones (S s) e) t h /\
      (nth (e * n + t) l 0 == ret_spec g (fun s => entry 0 rews s e) (fun s => entry false dones (S s) e) (nth e lastv 0) t h)%Q.
Proof.
  intros N Rr Rd Lv. unfold a2c_returns.
  destruct (swap_rect 0%Q n k rews Rr) as [Lr Fr]. destruct (swap_rect false (S n) k dones Rd) as [Ld Fd].
  set (R := swap_axes 0%Q k rews) in *. set (D0 := swap_axes false k dones) in *. set (D := map (@tl bool) D0).
  assert (LD : length D = k) by (unfold D; rewrite map_length; auto).
  assert (FD : Forall (fun r => length r = n) D).
  { unfold D. apply Forall_forall. intros r Hr. apply in_map_iff in Hr. destruct Hr as (r0 & <- & H0). rewrite Forall_forall in Fd. specialize (Fd _ H0). destruct r0; simpl in *; lia. }
  set (P := fun (x : list Q * list bool * Q) (y : list Q) => length y = n /\ forall t, t < n -> exists h, horizon n (fun s => nth s (snd (fst x)) false) t h /\
      (nth t y 0 == ret_spec g (fun s => nth s (fst (fst x)) 0%Q) (fun s => nth s (snd (fst x)) false) (snd x) t h)%Q).
  destruct (traverse_each (fun x => a2c_env g (fst (fst x)) (snd (fst x)) (snd x)) P (combine (combine R D) lastv) 0) as (rows & E & F).
  { intros [[r d] v] Hin. cbn [fst snd]. pose proof (in_combine_l _ _ _ _ Hin) as H1. pose proof (in_combine_l _ _ _ _ H1) as H2. pose proof (in_combine_r _ _ _ _ H1) as H3.
    rewrite Forall_forall in Fr, FD. specialize (Fr _ H2). specialize (FD _ H3). destruct (a2c_env_exact g r d v) as (y & E & Ly & Y).
    - intros ->. simpl in Fr. lia.
    - congruence.
    - exists y. split; auto. unfold P. cbn [fst snd]. rewrite <- Fr. split; auto. }
  rewrite E. cbn [bind]. exists (concat rows). split; auto.
  assert (Lrows : length rows = k).
  { replace (length rows) with (length (combine (combine R D) lastv)) by (clear - F; induction F; simpl; auto). rewrite !combine_length. lia. }
  assert (Frows : Forall (fun r => length r = n) rows).
  { clear -F. induction F as [|x y l l' H _ IH]; constructor; auto. apply H. }
  split; [rewrite (concat_len n), Lrows by exact Frows; reflexivity|]. intros t e Ht He.
  rewrite (nth_concat 0%Q n rows e t Frows) by lia.
  assert (PE : P (nth e R [], nth e D [], nth e lastv 0%Q) (nth e rows [])).
  { assert (X : forall l l', Forall2 P l l' -> forall i d d', i < length l -> P (nth i l d) (nth i l' d')).
    { clear. induction 1; intros [|i] d d' Hi; simpl in *; try lia; auto. apply IHForall2. lia. }
    specialize (X _ _ F e ([], [], 0%Q) [] ltac:(rewrite !combine_length; lia)).
    rewrite combine_nth in X by (rewrite combine_length; lia). rewrite combine_nth in X by lia. exact X. }
  destruct PE as [_ PE]. cbn [fst snd] in PE. destruct (PE t Ht) as (h & H & Eh). exists h.
  assert (ED : forall s, s < n -> nth s (nth e D []) false = entry false dones (S s) e).
  { intros s Hs. unfold D. rewrite (nth_map' (@tl bool) [] []) by lia. rewrite <- (swap_entry false (S n) k dones (S s) e Rd) by lia. unfold entry. fold D0.
    destruct (nth e D0 []) as [|x l] eqn:EE; [destruct s|]; reflexivity. }
  assert (ER : forall s, s < n -> nth s (nth e R []) 0%Q = entry 0%Q rews s e).
  { intros s Hs. rewrite <- (swap_entry 0%Q n k rews s e Rr) by lia. reflexivity. }
  destruct H as (H1 & H2 & H3). split.
  - split; auto. split; [intros i Hi; rewrite <- ED by lia; auto|]. rewrite <- ED by lia. auto.
  - rewrite Eh. unfold ret_spec. rewrite <- ED by lia.
    assert (DS : (dsum g (fun s => nth s (nth e R []) 0%Q) t (h - t) == dsum g (fun s => entry 0%Q rews s e) t (h - t))%Q).
    { unfold dsum. apply sum_to_ext. intros i Hi. rewrite ER by lia. reflexivity. }
    rewrite DS. reflexivity.
Qed.

(** A2C's returns are PPO2's with lambda = 1. *)
Theorem a2c_ppo2 g n k rews vals dones final lastv : 0 < n -> rect n k rews -> rect n k vals -> rect n k dones -> length final = k -> length lastv = k ->
  exists l, a2c_returns g k rews (dones ++ [final]) lastv = Some l /\
    Forall2 Qeq l (swap_and_flatten 0%Q k (gae_returns g 1 rews vals dones final lastv)).
Proof.
  intros N Rr Rv Rd Lf Ll.
  assert (Rd' : rect (S n) k (dones ++ [final])).
  { destruct Rd as [L F]. split; [rewrite app_length; simpl; lia|]. apply Forall_app. split; auto. }
  destruct (a2c_exact g n k rews _ lastv N Rr Rd' Ll) as (l & E & L & X). exists l. split; auto.
  destruct (gae_return_layout g 1 n k rews vals dones final lastv Rr Rv Rd Lf Ll) as [L2 Y].
  assert (G : forall i, i < k * n -> (nth i l 0 == nth i (swap_and_flatten 0%Q k (gae_returns g 1 rews vals dones final lastv)) 0)%Q).
  { intros i Hi. assert (Hm : i mod n < n) by (apply Nat.mod_upper_bound; lia).
    assert (Hd : i / n < k) by (apply Nat.div_lt_upper_bound; nia).
    rewrite (Nat.div_mod i n) by lia. rewrite (Nat.mul_comm n). set (t := i mod n) in *. set (e := i / n) in *.
    destruct (X t e Hm Hd) as (h & H & Eq). rewrite Eq, Y by auto.
    destruct (gae_lambda1 g 1 n k rews vals dones final lastv Rr Rv Rd Lf Ll t e ltac:(reflexivity) Hm Hd) as (h' & H' & Eq'). rewrite Eq'.
    assert (EN : forall s, s < n -> entry false (dones ++ [final]) (S s) e = ended n dones final e s).
    { intros s Hs. unfold entry, ended. destruct Rd as [LD _]. destruct (S s <? n) eqn:Es.
      - apply Nat.ltb_lt in Es. rewrite app_nth1 by lia. reflexivity.
      - apply Nat.ltb_ge in Es. rewrite app_nth2 by lia. replace (S s - length dones) with 0 by lia. reflexivity. }
    assert (HH : horizon n (ended n dones final e) t h).
    { destruct H as (A & B & C). split; auto. split; [intros; rewrite <- EN by lia; auto|]. rewrite <- EN by lia. auto. }
    rewrite (horizon_unique _ _ _ _ _ H' HH). unfold ret_spec. rewrite EN by (destruct HH; lia). reflexivity. }
  clear -G L L2. revert G. rewrite <- L. revert L2. rewrite <- L. clear L. generalize (swap_and_flatten 0%Q k (gae_returns g 1 rews vals dones final lastv)).
  intros l' L2 G. revert l' L2 G. induction l as [|x l IH]; intros [|y l'] L2 G; simpl in *; try discriminate; constructor.
  - apply (G 0). lia.
  - apply IH; [congruence|]. intros i Hi. apply (G (S i)). lia.
Qed.

(** * scale_action *)
Theorem scale_unscale low high a : (low < high)%Q -> (unscale_action low high (scale_action low high a) == a)%Q.
Proof. intros H. unfold unscale_action, scale_action. field. lra. Qed.
Theorem unscale_scale low high s : (low < high)%Q -> (scale_action low high (unscale_action low high s) == s)%Q.
Proof. intros H. unfold unscale_action, scale_action. field. lra. Qed.
Lemma scale_lt low high a b : (low < high)%Q -> ((a < b)%Q <-> (scale_action low high a < scale_action low high b)%Q).
Proof.
  intros H. set (w := (/ (high - low))%Q). assert (W : (0 < w)%Q) by (apply Qinv_lt_0_compat; lra).
  assert (D : (scale_action low high b - scale_action low high a == 2 * w * (b - a))%Q) by (unfold scale_action, w; field; lra).
  split; intros L.
  - assert (0 < w * (b - a))%Q by (apply Qmult_lt_0_compat; lra). lra.
  - destruct (Qlt_le_dec a b) as [?|Lb]; auto. exfalso. assert (0 <= w * (a - b))%Q by (apply Qmult_le_0_compat; lra). lra.
Qed.
Lemma scale_ends low high : (low < high)%Q -> (scale_action low high low == -1 /\ scale_action low high high == 1)%Q.
Proof. intros H. unfold scale_action. split; field; lra. Qed.
Theorem scale_range low high a : (low < high)%Q -> ((low <= a /\ a <= high)%Q <-> (-1 <= scale_action low high a /\ scale_action low high a <= 1)%Q).
Proof.
  intros H. destruct (scale_ends low high H) as [E1 E2].
  assert (X : forall x y, (x <= y)%Q <-> (scale_action low high x <= scale_action low high y)%Q).
  { intros x y. split; intros L.
    - destruct (Qlt_le_dec (scale_action low high y) (scale_action low high x)) as [G|G]; auto. apply scale_lt in G; auto. lra.
    - destruct (Qlt_le_dec y x) as [G|G]; auto. apply (scale_lt low high) in G; auto. lra. }
  rewrite <- E1, <- E2, <- !X. reflexivity.
Qed.
