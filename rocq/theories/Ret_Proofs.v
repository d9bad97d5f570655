From Coq Require Import List Arith ZArith QArith Lia Lqa Bool.
From Verif Require Import Base BaseFacts Opt_Model Opt_Facts Opt_Facts2 Ret_Model Ret_Spec.
Import ListNotations.
Open Scope nat_scope.

(** * Sums *)
Lemma sum_to_ext f g k : (forall i, i <= k -> (f i == g i)%Q) -> (sum_to f k == sum_to g k)%Q.
Proof. induction k as [|k IH]; intros H; simpl; [apply H; lia|]. rewrite IH, (H (S k)); [reflexivity|lia|intros; apply H; lia]. Qed.
Lemma sum_to_shift f k : (sum_to f (S k) == f 0%nat + sum_to (fun i => f (S i)) k)%Q.
Proof. induction k as [|k IH]; [simpl; ring|]. change (sum_to f (S (S k))) with (sum_to f (S k) + f (S (S k)))%Q. rewrite IH. simpl. ring. Qed.
Lemma sum_to_mult c f k : (sum_to (fun i => c * f i) k == c * sum_to f k)%Q.
Proof. induction k as [|k IH]; simpl; [ring|]. rewrite IH. ring. Qed.

(** Weights a(t) a(t+1) ... *)
Fixpoint trace (a : nat -> Q) (t k : nat) : Q := match k with O => 1%Q | S k' => (a t * trace a (S t) k')%Q end.
Definition wsum (a x : nat -> Q) (t k : nat) : Q := sum_to (fun i => trace a t i * x (t + i)%nat)%Q k.
Lemma wsum_S a x t k : (wsum a x t (S k) == x t + a t * wsum a x (S t) k)%Q.
Proof.
  unfold wsum. rewrite sum_to_shift. cbn [trace]. rewrite Nat.add_0_r. rewrite <- sum_to_mult.
  rewrite (sum_to_ext _ (fun i => a t * (trace a (S t) i * x (S t + i)%nat))%Q); [ring|].
  intros i _. replace (t + S i) with (S t + i) by lia. ring.
Qed.
Lemma cut_sum n (a x y : nat -> Q) (ends : nat -> bool) : (forall t, t < n -> (y t == x t + a t * (if ends t then 0 else y (S t)))%Q) ->
  forall d t h, h = t + d -> horizon n ends t h -> (y t == wsum a x t d + (if ends h then 0 else trace a t (S d) * y n))%Q.
Proof.
  intros R. induction d as [|d IH]; intros t h E (H1 & H2 & H3).
  - replace h with t in * by lia. rewrite R by lia. unfold wsum. cbn [sum_to trace]. rewrite Nat.add_0_r. destruct (ends t) eqn:Et; [ring|].
    destruct H3 as [H3|H3]; [congruence|]. replace (S t) with n by lia. ring.
  - rewrite R by lia. rewrite (H2 t) by lia. rewrite (IH (S t) h); [|lia|split; [lia|split; auto; intros; apply H2; lia]].
    rewrite wsum_S. destruct (ends h); cbn [trace]; ring.
Qed.
Lemma trace_const g t k : (trace (fun _ => g) t k == qpow g k)%Q.
Proof. revert t. induction k as [|k IH]; intros t; simpl; [reflexivity|]. rewrite IH. reflexivity. Qed.
Lemma wsum_const g x t k : (wsum (fun _ => g) x t k == dsum g x t k)%Q.
Proof. unfold wsum, dsum. apply sum_to_ext. intros i _. rewrite trace_const. reflexivity. Qed.
Lemma cut_dsum n g (x y : nat -> Q) (ends : nat -> bool) t h : (forall s, s < n -> (y s == x s + g * (if ends s then 0 else y (S s)))%Q) ->
  horizon n ends t h -> (y t == ret_spec g x ends (y n) t h)%Q.
Proof.
  intros R H. pose proof H as (H1 & _). rewrite (cut_sum n (fun _ => g) x y ends R (h - t) t h ltac:(lia) H). unfold ret_spec.
  rewrite wsum_const. destruct (ends h); [reflexivity|]. rewrite trace_const. reflexivity.
Qed.
Lemma iprod_S c t k : (iprod c t (S k) == c (S t) * iprod c (S t) k)%Q.
Proof.
  induction k as [|k IH]; [simpl; rewrite Nat.add_1_r; ring|]. change (iprod c t (S (S k))) with (iprod c t (S k) * c (t + S (S k))%nat)%Q. rewrite IH.
  cbn [iprod]. replace (S t + S k) with (t + S (S k)) by lia. ring.
Qed.
Lemma trace_retrace g c t k : (trace (fun s => g * c (S s)) t k == qpow g k * iprod c t k)%Q.
Proof. revert t. induction k as [|k IH]; intros t; [reflexivity|]. cbn [trace qpow]. rewrite IH, iprod_S. ring. Qed.

Lemma horizon_exists n ends t : t < n -> exists h, horizon n ends t h.
Proof.
  intros H. remember (n - 1 - t) as d eqn:E. revert t H E. induction d as [|d IH]; intros t H E.
  - exists t. split; [lia|]. split; [intros; lia|]. right; lia.
  - destruct (ends t) eqn:Et.
    + exists t. split; [lia|]. split; [intros; lia|]. auto.
    + destruct (IH (S t)) as (h & A & B & C); try lia. exists h. split; [lia|]. split; auto. intros k Hk.
      destruct (Nat.eq_dec k t) as [->|]; auto. apply B. lia.
Qed.
Lemma horizon_unique n ends t h h' : horizon n ends t h -> horizon n ends t h' -> h = h'.
Proof.
  intros (A & B & C) (A' & B' & C'). destruct (lt_eq_lt_dec h h') as [[L|L]|L]; auto; exfalso.
  - destruct C as [C|C]; [|lia]. rewrite B' in C by lia. discriminate.
  - destruct C' as [C'|C']; [|lia]. rewrite B in C' by lia. discriminate.
Qed.

(** * Backward loops *)
Lemma back_spec {A B} (F : nat -> B -> A) (G : nat -> B -> A -> B) n : forall rows0 z,
  exists (c : nat -> B) rows,
    fold_left (fun acc step => let row := F step (snd acc) in (row :: fst acc, G step (snd acc) row)) (rev (seq 0 n)) (rows0, z) = (rows ++ rows0, c 0) /\
    length rows = n /\ c n = z /\
    forall t, t < n -> nth_error rows t = Some (F t (c (S t))) /\ c t = G t (c (S t)) (F t (c (S t))).
Proof.
  induction n as [|n IH]; intros rows0 z.
  - exists (fun _ => z), []. simpl. repeat split; auto; lia.
  - rewrite seq_S, rev_app_distr. cbn [rev app fold_left Nat.add fst snd].
    destruct (IH (F n z :: rows0) (G n z (F n z))) as (c & rows & E & L & Cn & R).
    exists (fun t => if t =? S n then z else c t), (rows ++ [F n z]). split; [|split; [|split]].
    + cbv zeta in E |- *. rewrite E. cbn [Nat.eqb]. rewrite <- app_assoc. reflexivity.
    + rewrite app_length. simpl. lia.
    + rewrite Nat.eqb_refl. reflexivity.
    + intros t Ht. replace (t =? S n) with false by (symmetry; apply Nat.eqb_neq; lia). destruct (Nat.eq_dec t n) as [->|N].
      * rewrite Nat.eqb_refl. split; [|exact Cn]. rewrite nth_error_app2 by lia. rewrite L, Nat.sub_diag. reflexivity.
      * replace (S t =? S n) with false by (symmetry; apply Nat.eqb_neq; lia). destruct (R t) as [R1 R2]; [lia|]. split; auto.
        rewrite nth_error_app1 by lia. exact R1.
Qed.

(** * Arrays *)
Lemma nth_map2 {A B C} (f : A -> B -> C) d da db : forall a b i, i < length a -> i < length b -> nth i (map2 f a b) d = f (nth i a da) (nth i b db).
Proof. induction a as [|x a IH]; intros [|y b] [|i] H1 H2; simpl in *; try lia; auto. apply IH; lia. Qed.
Lemma map2_len {A B C} (f : A -> B -> C) : forall a b, length (map2 f a b) = min (length a) (length b).
Proof. induction a as [|x a IH]; intros [|y b]; simpl; auto. Qed.
Lemma nth_map' {A B} (f : A -> B) d d' l i : i < length l -> nth i (map f l) d = f (nth i l d').
Proof. intros H. rewrite (nth_indep _ d (f d')) by (rewrite map_length; auto). apply map_nth. Qed.
Lemma nth_map_seq' {B} (f : nat -> B) d n i : i < n -> nth i (map f (seq 0 n)) d = f i.
Proof. intros H. rewrite (nth_map' f d 0) by (rewrite seq_length; auto). rewrite seq_nth; auto. Qed.
Lemma rect_row {A} n k (m : list (list A)) t : rect n k m -> t < n -> length (nth t m []) = k.
Proof. intros [L F] H. rewrite Forall_forall in F. apply F. apply nth_In. lia. Qed.

Lemma nth_concat {A} (d : A) n : forall m e t, Forall (fun r => length r = n) m -> e < length m -> t < n -> nth (e * n + t) (concat m) d = nth t (nth e m []) d.
Proof.
  induction m as [|r m IH]; intros e t F He Ht; simpl in He; [lia|]. inversion F; subst. destruct e as [|e]; cbn [concat nth].
  - simpl. rewrite app_nth1; auto.
  - rewrite app_nth2 by nia. replace (S e * length r + t - length r) with (e * length r + t) by nia. apply IH; auto. lia.
Qed.
Lemma concat_len {A} n : forall m : list (list A), Forall (fun r => length r = n) m -> length (concat m) = length m * n.
Proof. induction m as [|r m IH]; intros F; [reflexivity|]. inversion F; subst. cbn [concat length]. rewrite app_length, IH by auto. lia. Qed.

Lemma swap_rect {A} (d : A) n k m : rect n k m -> rect k n (swap_axes d k m).
Proof.
  intros [L F]. unfold swap_axes. split; [rewrite map_length, seq_length; auto|]. apply Forall_forall. intros r Hr.
  apply in_map_iff in Hr. destruct Hr as (e & <- & _). rewrite map_length. auto.
Qed.
Lemma swap_entry {A} (d : A) n k m t e : rect n k m -> t < n -> e < k -> entry d (swap_axes d k m) e t = entry d m t e.
Proof.
  intros R Ht He. unfold entry, swap_axes. rewrite nth_map_seq' by auto. rewrite (nth_map' (fun row => nth e row d) d []) by (destruct R; lia). reflexivity.
Qed.
Theorem flatten_layout {A} (d : A) n k m : rect n k m -> length (swap_and_flatten d k m) = k * n /\
  forall t e, t < n -> e < k -> nth (e * n + t) (swap_and_flatten d k m) d = entry d m t e.
Proof.
  intros R. pose proof (swap_rect d n k m R) as [L F]. unfold swap_and_flatten. split.
  - rewrite (concat_len n), L by exact F. reflexivity.
  - intros t e Ht He. rewrite (nth_concat d n); auto; [|lia]. exact (swap_entry d n k m t e R Ht He).
Qed.

(** * GAE *)
Section GAE.
Context (gamma lam : Q) (n k : nat) (rews vals : list (list Q)) (dones : list (list bool)) (final : list bool) (lastv : list Q).
Hypothesis Rr : rect n k rews.
Hypothesis Rv : rect n k vals.
Hypothesis Rd : rect n k dones.
Hypothesis Lf : length final = k.
Hypothesis Ll : length lastv = k.

Let nextv t := if t =? n - 1 then lastv else nth (t + 1) vals [].
Let nextd t := if t =? n - 1 then final else nth (t + 1) dones [].
Lemma nextv_len t : t < n -> length (nextv t) = k.
Proof. intros H. unfold nextv. destruct (t =? n - 1) eqn:E; auto. apply Nat.eqb_neq in E. eapply rect_row; eauto. lia. Qed.
Lemma nextd_len t : t < n -> length (nextd t) = k.
Proof. intros H. unfold nextd. destruct (t =? n - 1) eqn:E; auto. apply Nat.eqb_neq in E. eapply rect_row; eauto. lia. Qed.
Lemma nextv_at t e : t < n -> nth e (nextv t) 0%Q = value_at n vals lastv e (S t).
Proof.
  intros H. unfold nextv, value_at, entry. destruct (t =? n - 1) eqn:E.
  - apply Nat.eqb_eq in E. replace (S t <? n) with false by (symmetry; apply Nat.ltb_ge; lia). reflexivity.
  - apply Nat.eqb_neq in E. replace (S t <? n) with true by (symmetry; apply Nat.ltb_lt; lia). rewrite Nat.add_1_r. reflexivity.
Qed.
Lemma nextd_at t e : t < n -> nth e (nextd t) false = ended n dones final e t.
Proof.
  intros H. unfold nextd, ended, entry. destruct (t =? n - 1) eqn:E.
  - apply Nat.eqb_eq in E. replace (S t <? n) with false by (symmetry; apply Nat.ltb_ge; lia). reflexivity.
  - apply Nat.eqb_neq in E. replace (S t <? n) with true by (symmetry; apply Nat.ltb_lt; lia). rewrite Nat.add_1_r. reflexivity.
Qed.

Lemma gae_row_at rew val nv nd last e : length rew = k -> length val = k -> length nv = k -> length nd = k -> length last = k ->
  length (gae_row gamma lam rew val nv nd last) = k /\
  (e < k -> (nth e (gae_row gamma lam rew val nv nd last) 0 ==
     nth e rew 0 + gamma * (if nth e nd false then 0 else nth e nv 0) - nth e val 0 + gamma * lam * (if nth e nd false then 0 else nth e last 0))%Q).
Proof.
  intros L1 L2 L3 L4 L5. unfold gae_row. split.
  - repeat rewrite ?map2_len, ?map_length. lia.
  - intros He. rewrite !(nth_map2 _ 0%Q 0%Q 0%Q) by (repeat rewrite ?map2_len, ?map_length; lia).
    rewrite !(nth_map' _ 0%Q 0%Q) by (repeat rewrite ?map2_len, ?map_length; lia).
    rewrite !(nth_map' _ 0%Q false) by lia. destruct (nth e nd false); simpl; ring.
Qed.

Let advs := gae_advs gamma lam rews vals dones final lastv.
Lemma gae_rec : rect n k advs /\
  forall e, e < k -> exists y : nat -> Q, (y n == 0)%Q /\ (forall t, t < n -> y t = entry 0%Q advs t e) /\
    forall t, t < n -> (y t == td gamma (fun s => entry 0 rews s e) (value_at n vals lastv e) (ended n dones final e) t
                          + gamma * lam * (if ended n dones final e t then 0 else y (S t)))%Q.
Proof.
  unfold advs, gae_advs. assert (Ln : length rews = n) by (destruct Rr; auto). rewrite Ln.
  destruct (back_spec (fun step last => gae_row gamma lam (nth step rews []) (nth step vals []) (nextv step) (nextd step) last) (fun _ _ row => row) n [] (map (fun _ => 0%Q) final))
    as (c & rows & E & L & Cn & R). unfold nextv, nextd in E. cbv zeta in E |- *. rewrite E. cbn [fst]. rewrite app_nil_r.
  assert (LC : forall d t, t + d = n -> length (c t) = k).
  { induction d as [|d IH]; intros t Ht.
    - replace t with n by lia. rewrite Cn, map_length. auto.
    - destruct (R t) as [_ ->]; [lia|]. apply gae_row_at; auto; try (eapply rect_row; eauto; lia); [apply nextv_len; lia|apply nextd_len; lia|apply IH; lia]. }
  assert (NR : forall t, t < n -> nth t rows [] = c t).
  { intros t Ht. destruct (R t Ht) as [R1 R2]. rewrite R2. apply nth_error_nth. exact R1. }
  split.
  - split; auto. apply Forall_forall. intros r Hr. apply (In_nth _ _ []) in Hr. destruct Hr as (t & Ht & <-). rewrite NR by lia. apply (LC (n - t)). lia.
  - intros e He. exists (fun t => nth e (c t) 0%Q). split; [|split].
    + rewrite Cn. rewrite (nth_map' _ 0%Q false) by lia. reflexivity.
    + intros t Ht. unfold entry. rewrite NR by auto. reflexivity.
    + intros t Ht. destruct (R t Ht) as [_ R2]. rewrite R2 at 1.
      destruct (gae_row_at (nth t rews []) (nth t vals []) (nextv t) (nextd t) (c (S t)) e) as [_ G];
        try (eapply rect_row; eauto); [apply nextv_len; lia|apply nextd_len; lia|apply (LC (n - S t)); lia|].
      rewrite (G He). rewrite nextv_at, nextd_at by auto. unfold td. replace (value_at n vals lastv e t) with (entry 0%Q vals t e) by (unfold value_at; replace (t <? n) with true by (symmetry; apply Nat.ltb_lt; auto); reflexivity). reflexivity.
Qed.

Theorem gae_exact t e : t < n -> e < k -> exists h, horizon n (ended n dones final e) t h /\
  (entry 0 advs t e == dsum (gamma * lam) (td gamma (fun s => entry 0 rews s e) (value_at n vals lastv e) (ended n dones final e)) t (h - t))%Q.
Proof.
  intros Ht He. destruct (horizon_exists n (ended n dones final e) t Ht) as (h & H). exists h. split; auto.
  destruct gae_rec as [_ G]. destruct (G e He) as (y & Y0 & Y1 & Y2). rewrite <- Y1 by auto.
  rewrite (cut_dsum n (gamma * lam) _ y _ t h Y2 H). unfold ret_spec. destruct (ended n dones final e h); [ring|]. rewrite Y0. ring.
Qed.
Lemma returns_rect : rect n k (gae_returns gamma lam rews vals dones final lastv).
Proof.
  destruct gae_rec as [[L F] _]. destruct Rv as [L' F']. unfold gae_returns. fold advs. split; [rewrite map2_len; lia|].
  clear -F F'. revert F'. generalize vals. induction F as [|r m Hr _ IH]; intros [|v vs] F'; simpl; constructor; inversion F'; subst; auto.
  rewrite map2_len. lia.
Qed.
Lemma returns_at t e : t < n -> e < k -> entry 0%Q (gae_returns gamma lam rews vals dones final lastv) t e = (entry 0 advs t e + entry 0 vals t e)%Q.
Proof.
  intros Ht He. destruct gae_rec as [R _]. unfold entry, gae_returns. fold advs. rewrite (nth_map2 _ [] [] []) by (destruct R, Rv; lia).
  apply (nth_map2 Qplus); [rewrite (rect_row n k _ t R Ht)|rewrite (rect_row n k _ t Rv Ht)]; auto.
Qed.
Theorem gae_return_layout : length (swap_and_flatten 0%Q k (gae_returns gamma lam rews vals dones final lastv)) = k * n /\
  forall t e, t < n -> e < k ->
  nth (e * n + t) (swap_and_flatten 0%Q k (gae_returns gamma lam rews vals dones final lastv)) 0%Q = (entry 0 advs t e + entry 0 vals t e)%Q.
Proof.
  destruct (flatten_layout 0%Q n k _ returns_rect) as [A B]. split; auto. intros t e Ht He. rewrite B by auto. apply returns_at; auto.
Qed.
Theorem gae_lambda1 t e : (lam == 1)%Q -> t < n -> e < k -> exists h, horizon n (ended n dones final e) t h /\
  (entry 0 advs t e + entry 0 vals t e == ret_spec gamma (fun s => entry 0 rews s e) (ended n dones final e) (nth e lastv 0) t h)%Q.
Proof.
  intros HL Ht He. destruct (horizon_exists n (ended n dones final e) t Ht) as (h & H). exists h. split; auto.
  destruct gae_rec as [_ G]. destruct (G e He) as (y & Y0 & Y1 & Y2). rewrite <- Y1 by auto.
  set (V := value_at n vals lastv e) in *. assert (VV : forall s, s < n -> V s = entry 0%Q vals s e).
  { intros s Hs. unfold V, value_at. replace (s <? n) with true by (symmetry; apply Nat.ltb_lt; auto). reflexivity. }
  rewrite <- VV by auto. rewrite (cut_dsum n gamma (fun s => entry 0%Q rews s e) (fun s => y s + V s)%Q (ended n dones final e) t h); auto.
  - unfold ret_spec. destruct (ended n dones final e h); [reflexivity|]. rewrite Y0. unfold V, value_at. rewrite Nat.ltb_irrefl. ring.
  - intros s Hs. rewrite Y2 by auto. rewrite HL. unfold td. destruct (ended n dones final e s); ring.
Qed.
Theorem gae_lambda0 t e : (lam == 0)%Q -> t < n -> e < k ->
  (entry 0 advs t e == td gamma (fun s => entry 0 rews s e) (value_at n vals lastv e) (ended n dones final e) t)%Q.
Proof.
  intros HL Ht He. destruct gae_rec as [_ G]. destruct (G e He) as (y & Y0 & Y1 & Y2). rewrite <- Y1 by auto. rewrite Y2 by auto. rewrite HL. ring.
Qed.
End GAE.
