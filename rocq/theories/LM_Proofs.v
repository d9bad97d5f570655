(** Recurrent policies: proofs. *)
From Coq Require Import Reals List Arith Bool Lia Lra.
From Verif Require Import LM_Model LM_Spec.
Import ListNotations.
Open Scope R_scope.

(** ** Rows *)
Lemma zip_length : forall f a b, length (zip f a b) = Nat.min (length a) (length b).
Proof. intros. unfold zip. rewrite map_length, combine_length. reflexivity. Qed.
Lemma zip_nth : forall f a b k, (k < length a)%nat -> (k < length b)%nat -> nth k (zip f a b) 0 = f (nth k a 0) (nth k b 0).
Proof.
  intros f a. induction a as [|x a IH]; intros [|y b] k Ha Hb; cbn in Ha, Hb; try lia.
  destruct k as [|k]; [reflexivity|]. cbn. apply (IH b k); lia.
Qed.
Lemma nth_map0 : forall (f : R -> R) l k, (k < length l)%nat -> nth k (map f l) 0 = f (nth k l 0).
Proof. intros f l k H. rewrite (nth_indep (map f l) 0 (f 0)) by (rewrite map_length; exact H). apply map_nth. Qed.
Lemma nth_zeros : forall w k, nth k (zeros w) 0 = 0.
Proof. intros w. induction w as [|w IH]; intros [|k]; cbn; auto. Qed.
Lemma sum_ext : forall n f g, (forall i, (i < n)%nat -> f i = g i) -> sum_to n f = sum_to n g.
Proof. induction n as [|n IH]; intros f g H; cbn; [reflexivity|]. rewrite (IH f g), (H n); auto. Qed.
Lemma sum_head : forall n f, sum_to (S n) f = f 0%nat + sum_to n (fun i => f (S i)).
Proof. induction n as [|n IH]; intros f; cbn in *; [lra|]. rewrite IH. lra. Qed.

Lemma matmul_gen : forall w x m acc, Forall (fun r => length r = w) m -> length x = length m -> length acc = w ->
  length (fold_left (fun acc p => zip Rplus acc (map (Rmult (fst p)) (snd p))) (combine x m) acc) = w /\
  forall k, (k < w)%nat -> nth k (fold_left (fun acc p => zip Rplus acc (map (Rmult (fst p)) (snd p))) (combine x m) acc) 0 =
    nth k acc 0 + sum_to (length m) (fun i => nth i x 0 * entry m i k).
Proof.
  intros w x. induction x as [|a x IH]; intros m acc Hm Hx Ha; destruct m as [|r m]; try discriminate.
  - cbn. split; [exact Ha|]. intros. lra.
  - cbn [combine fold_left fst snd]. pose proof (Forall_inv Hm) as Hr. pose proof (Forall_inv_tail Hm) as Hm'. cbn in Hr.
    assert (Hl : length (zip Rplus acc (map (Rmult a) r)) = w) by (rewrite zip_length, map_length; lia).
    destruct (IH m (zip Rplus acc (map (Rmult a) r)) Hm' ltac:(cbn in Hx; lia) Hl) as (I1 & I2). split; [exact I1|].
    intros k Hk. rewrite I2 by exact Hk. rewrite zip_nth by (rewrite ?map_length; lia). rewrite nth_map0 by lia.
    cbn [length]. rewrite sum_head.
    rewrite (sum_ext (length m) (fun i => nth (S i) (a :: x) 0 * entry (r :: m) (S i) k) (fun i => nth i x 0 * entry m i k)) by reflexivity.
    change (nth 0 (a :: x) 0) with a. change (entry (r :: m) 0 k) with (nth k r 0). lra.
Qed.
Lemma matmul_length : forall w x m, Forall (fun r => length r = w) m -> length x = length m -> length (matmul w x m) = w.
Proof. intros w x m Hm Hx. apply (matmul_gen w x m (zeros w) Hm Hx). apply repeat_length. Qed.
Lemma matmul_nth : forall w x m k, Forall (fun r => length r = w) m -> length x = length m -> (k < w)%nat ->
  nth k (matmul w x m) 0 = product m (fun i => nth i x 0) k.
Proof.
  intros w x m k Hm Hx Hk. destruct (matmul_gen w x m (zeros w) Hm Hx (repeat_length _ _)) as (_ & H).
  unfold matmul. rewrite H by exact Hk. rewrite nth_zeros. unfold product. apply Rplus_0_l.
Qed.

(** ** Layer normalisation *)
Lemma total_gen : forall v a, fold_left Rplus v a = a + sum_to (length v) (fun i => nth i v 0).
Proof.
  induction v as [|x v IH]; intros a; cbn [fold_left]; [cbn; lra|].
  rewrite IH. cbn [length]. rewrite sum_head. cbn [nth]. lra.
Qed.
Lemma total_sum : forall v, total v = sum_to (length v) (fun i => nth i v 0).
Proof. intros v. unfold total. rewrite total_gen. lra. Qed.
Lemma average_mean : forall v, average v = mean_of (length v) (fun i => nth i v 0).
Proof. intros v. unfold average, mean_of. rewrite total_sum. reflexivity. Qed.
Lemma variance_var : forall v, variance v = var_of (length v) (fun i => nth i v 0).
Proof.
  intros v. unfold variance. unfold average at 1. rewrite total_sum, !map_length. unfold var_of. f_equal.
  apply sum_ext. intros i Hi. rewrite (nth_map0 (fun x => (x - average v) * (x - average v))) by exact Hi.
  rewrite average_mean. ring.
Qed.
Lemma mean_ext : forall w f g, (forall i, (i < w)%nat -> f i = g i) -> mean_of w f = mean_of w g.
Proof. intros w f g H. unfold mean_of. rewrite (sum_ext w f g H). reflexivity. Qed.
Lemma normalised_ext : forall w ga bi f g k, (forall i, (i < w)%nat -> f i = g i) -> (k < w)%nat ->
  normalised w ga bi f k = normalised w ga bi g k.
Proof.
  intros w ga bi f g k H Hk. unfold normalised, var_of. rewrite (mean_ext w f g H), (H k Hk).
  erewrite sum_ext; [reflexivity|]. intros i Hi. cbn. rewrite (H i Hi). reflexivity.
Qed.
Lemma ln_length : forall ga bi v, length ga = length v -> length bi = length v -> length (ln_row ga bi v) = length v.
Proof. intros. unfold ln_row. rewrite !zip_length, map_length. lia. Qed.
Lemma ln_nth : forall ga bi v k, length ga = length v -> length bi = length v -> (k < length v)%nat ->
  nth k (ln_row ga bi v) 0 = normalised (length v) ga bi (fun i => nth i v 0) k.
Proof.
  intros ga bi v k Hg Hb Hk. unfold ln_row. rewrite zip_nth by (rewrite ?zip_length, ?map_length; lia).
  rewrite zip_nth by (rewrite ?map_length; lia).
  rewrite (nth_map0 (fun x => (x - average v) / sqrt (variance v + / 10 ^ 5))) by exact Hk.
  unfold normalised. rewrite average_mean, variance_var. reflexivity.
Qed.

(** ** One step *)
Lemma gates_ok : forall p x h, shaped p -> length x = length (weight_x p) -> length h = n_hidden p ->
  length (gates p x h) = (4 * n_hidden p)%nat /\
  forall k, (k < 4 * n_hidden p)%nat -> nth k (gates p x h) 0 = activation p (fun i => nth i x 0) (fun i => nth i h 0) k.
Proof.
  intros p x h (Sx & Sh & Lh & Lb & Sn) Hx Hh. unfold gates, activation. set (w := (4 * n_hidden p)%nat) in *.
  assert (Mx : length (matmul w x (weight_x p)) = w) by (apply matmul_length; assumption).
  assert (Mh : length (matmul w h (weight_h p)) = w) by (apply matmul_length; [assumption|lia]).
  destruct (layer_norm p) as [g|].
  - destruct Sn as (G1 & G2 & G3 & G4 & _).
    assert (L1 : length (ln_row (gain_x g) (bias_x g) (matmul w x (weight_x p))) = w) by (rewrite ln_length; lia).
    assert (L2 : length (ln_row (gain_h g) (bias_h g) (matmul w h (weight_h p))) = w) by (rewrite ln_length; lia).
    split; [rewrite !zip_length; lia|]. intros k Hk. rewrite zip_nth by (rewrite ?zip_length; lia).
    rewrite zip_nth by lia. rewrite !ln_nth by lia. rewrite Mx, Mh. f_equal. f_equal.
    + apply normalised_ext; [|exact Hk]. intros i Hi. apply matmul_nth; assumption.
    + apply normalised_ext; [|exact Hk]. intros i Hi. apply matmul_nth; [assumption|lia|assumption].
  - split; [rewrite !zip_length; lia|]. intros k Hk. rewrite zip_nth by (rewrite ?zip_length; lia).
    rewrite zip_nth by lia. rewrite !matmul_nth by (assumption || lia). reflexivity.
Qed.
Lemma slice_length : forall n k v, (S k * n <= length v)%nat -> length (slice n k v) = n.
Proof. intros n k v H. unfold slice. rewrite firstn_length, skipn_length. cbn in H. lia. Qed.
Lemma nth_firstn0 : forall (v : row) n j, (j < n)%nat -> nth j (firstn n v) 0 = nth j v 0.
Proof.
  intros v. induction v as [|x v IH]; intros [|n] j H; cbn; try lia; [destruct j; reflexivity|].
  destruct j as [|j]; [reflexivity|]. apply IH. lia.
Qed.
Lemma nth_skipn0 : forall (v : row) n j, nth j (skipn n v) 0 = nth (n + j) v 0.
Proof. intros v. induction v as [|x v IH]; intros [|n] j; cbn; try reflexivity; [destruct j; reflexivity|]. apply IH. Qed.
Lemma slice_nth : forall n k v j, (j < n)%nat -> nth j (slice n k v) 0 = nth (k * n + j) v 0.
Proof. intros n k v j H. unfold slice. rewrite nth_firstn0 by exact H. apply nth_skipn0. Qed.

Lemma product_ext : forall m f g k, (forall i, (i < length m)%nat -> f i = g i) -> product m f k = product m g k.
Proof. intros m f g k H. unfold product. apply sum_ext. intros i Hi. rewrite (H i Hi). reflexivity. Qed.
Lemma activation_ext : forall p x x' h h' k, shaped p -> (forall i, (i < length (weight_x p))%nat -> x i = x' i) ->
  (forall i, (i < n_hidden p)%nat -> h i = h' i) -> (k < 4 * n_hidden p)%nat -> activation p x h k = activation p x' h' k.
Proof.
  intros p x x' h h' k (Sx & Sh & Lh & Lb & Sn) Hx Hh Hk. unfold activation.
  assert (E1 : forall i, product (weight_x p) x i = product (weight_x p) x' i) by (intros; apply product_ext; exact Hx).
  assert (E2 : forall i, product (weight_h p) h i = product (weight_h p) h' i) by (intros; apply product_ext; rewrite Lh; exact Hh).
  destruct (layer_norm p) as [g|]; [|rewrite E1, E2; reflexivity].
  f_equal. f_equal; apply normalised_ext; auto.
Qed.
Definition mask_of (b : bool) : R := if b then 1 else 0.
(** The memory of an environment and the functions of the specification. *)
Definition agrees (n : nat) (s : memory) (f : (nat -> R) * (nat -> R)) : Prop :=
  length (fst s) = n /\ length (snd s) = n /\
  forall j, (j < n)%nat -> nth j (fst s) 0 = fst f j /\ nth j (snd s) 0 = snd f j.
Lemma cell_ok : forall p x b s f xf, shaped p -> length x = length (weight_x p) -> agrees (n_hidden p) s f ->
  (forall i, (i < length (weight_x p))%nat -> nth i x 0 = xf i) ->
  agrees (n_hidden p) (cell p x (mask_of b) s) (textbook p xf b f).
Proof.
  intros p x b s f xf Sp Hx (Lc & Lh & Hs) Hxf. pose proof Sp as (_ & _ & _ & _ & Sn). set (n := n_hidden p) in *.
  unfold cell, textbook. fold n. cbn [fst snd].
  set (c := map (fun y => y * (1 - mask_of b)) (fst s)). set (h := map (fun y => y * (1 - mask_of b)) (snd s)).
  set (cf := if b then fun _ => 0 else fst f). set (hf := if b then fun _ => 0 else snd f).
  assert (Lc' : length c = n) by (unfold c; rewrite map_length; exact Lc).
  assert (Lh' : length h = n) by (unfold h; rewrite map_length; exact Lh).
  assert (Hc : forall j, (j < n)%nat -> nth j c 0 = cf j).
  { intros j Hj. unfold c, cf. rewrite (nth_map0 (fun y => y * (1 - mask_of b))) by lia. destruct (Hs j Hj) as (-> & _).
    destruct b; cbn; ring. }
  assert (Hh : forall j, (j < n)%nat -> nth j h 0 = hf j).
  { intros j Hj. unfold h, hf. rewrite (nth_map0 (fun y => y * (1 - mask_of b))) by lia. destruct (Hs j Hj) as (_ & ->).
    destruct b; cbn; ring. }
  destruct (gates_ok p x h Sp Hx Lh') as (La & Ha). fold n in La, Ha.
  assert (HA : forall k, (k < 4 * n)%nat -> nth k (gates p x h) 0 = activation p xf hf k).
  { intros k Hk. rewrite Ha by exact Hk. apply activation_ext; auto. }
  set (a := gates p x h) in *. clearbody a c h cf hf.
  assert (Ls : forall k, (k < 4)%nat -> length (slice n k a) = n) by (intros k Hk; apply slice_length; nia).
  assert (Hsl : forall k j g, (k < 4)%nat -> (j < n)%nat -> nth j (map g (slice n k a)) 0 = g (activation p xf hf (k * n + j)%nat)).
  { intros k j g Hk Hj. rewrite nth_map0 by (rewrite Ls; lia). rewrite slice_nth by exact Hj. rewrite HA by nia. reflexivity. }
  set (cn := zip Rplus (zip Rmult (map sigmoid (slice n 1 a)) c) (zip Rmult (map sigmoid (slice n 0 a)) (map tanh (slice n 3 a)))).
  set (cnf := fun j => sigmoid (activation p xf hf (n + j)%nat) * cf j + sigmoid (activation p xf hf j) * tanh (activation p xf hf (3 * n + j)%nat)).
  assert (Lcn : length cn = n) by (unfold cn; rewrite !zip_length, !map_length, !Ls by lia; lia).
  assert (Hcn : forall j, (j < n)%nat -> nth j cn 0 = cnf j).
  { intros j Hj. unfold cn, cnf.
    rewrite zip_nth by (rewrite zip_length, ?map_length, ?Ls by lia; lia).
    rewrite zip_nth by (rewrite ?map_length, ?Ls by lia; lia).
    rewrite zip_nth by (rewrite ?map_length, ?Ls by lia; lia).
    rewrite (Hsl 1%nat), (Hsl 0%nat), (Hsl 3%nat), Hc by lia.
    replace (1 * n + j)%nat with (n + j)%nat by lia. replace (0 * n + j)%nat with j by lia. reflexivity. }
  clearbody cn. split; [exact Lcn|].
  assert (Lz : length (match layer_norm p with Some g => ln_row (gain_c g) (bias_c g) cn | None => cn end) = n).
  { destruct (layer_norm p) as [g|]; [|exact Lcn]. destruct Sn as (_ & _ & _ & _ & G5 & G6). rewrite ln_length; lia. }
  cbn [fst snd]. split; [rewrite zip_length, !map_length, Ls, Lz by lia; lia|].
  intros j Hj. split; [apply Hcn; exact Hj|].
  rewrite zip_nth by (rewrite ?map_length, ?Ls, ?Lz by lia; lia). rewrite (Hsl 2%nat) by lia.
  f_equal. rewrite nth_map0 by (rewrite Lz; exact Hj). f_equal.
  destruct (layer_norm p) as [g|]; [|apply Hcn; exact Hj]. destruct Sn as (_ & _ & _ & _ & G5 & G6).
  rewrite ln_nth by lia. rewrite Lcn. apply normalised_ext; [|exact Hj]. exact Hcn.
Qed.

(** ** The loop *)
Lemma step_all_nth : forall p xs ms ss e x m s, nth_error xs e = Some x -> nth_error ms e = Some m -> nth_error ss e = Some s ->
  nth_error (step_all p xs ms ss) e = Some (cell p x m s).
Proof.
  intros p xs. unfold step_all. induction xs as [|a xs IH]; intros [|b ms] [|c ss] [|e] x m s Hx Hm Hs; cbn in *; try discriminate.
  - congruence.
  - apply IH; assumption.
Qed.
Lemma step_all_length : forall p xs ms ss, length (step_all p xs ms ss) = Nat.min (Nat.min (length xs) (length ms)) (length ss).
Proof. intros. unfold step_all. rewrite map_length, !combine_length. reflexivity. Qed.
Lemma nth_error_ex : forall {A} (l : list A) i, (i < length l)%nat -> exists a, nth_error l i = Some a.
Proof. intros A l i H. destruct (nth_error l i) eqn:E; eauto. apply nth_error_None in E. lia. Qed.

(** The memory of environment e after t steps of the loop. *)
Fixpoint mem (p : params) (inputs : list (list row)) (masks : list (list R)) (ss : list memory) (t : nat) {struct t} : list memory :=
  match t, inputs, masks with
  | S k, xs :: inputs', ms :: masks' => mem p inputs' masks' (step_all p xs ms ss) k
  | _, _, _ => ss
  end.
Lemma loop_ok : forall p inputs masks ss, length inputs = length masks ->
  snd (loop p inputs masks ss) = mem p inputs masks ss (length inputs) /\
  length (fst (loop p inputs masks ss)) = length inputs /\
  forall t, (t < length inputs)%nat -> nth_error (fst (loop p inputs masks ss)) t = Some (map snd (mem p inputs masks ss (S t))).
Proof.
  intros p inputs. induction inputs as [|xs inputs IH]; intros [|ms masks] ss H; cbn in H; try discriminate.
  - cbn. repeat split; auto. intros; lia.
  - destruct (IH masks (step_all p xs ms ss) ltac:(lia)) as (I1 & I2 & I3). cbn [loop fst snd length]. repeat split.
    + exact I1.
    + cbn. rewrite I2. reflexivity.
    + intros [|t] Ht; [reflexivity|]. cbn [nth_error]. rewrite I3 by lia. reflexivity.
Qed.
Lemma mem_shift : forall p inputs masks ss t xs ms, nth_error inputs t = Some xs -> nth_error masks t = Some ms ->
  mem p inputs masks ss (S t) = step_all p xs ms (mem p inputs masks ss t).
Proof.
  intros p inputs. induction inputs as [|a inputs IH]; intros [|b masks] ss [|t] xs ms Hx Hm; cbn in Hx, Hm; try discriminate.
  - injection Hx as ->. injection Hm as ->. cbn. destruct inputs, masks; reflexivity.
  - change (mem p inputs masks (step_all p a b ss) (S t) = step_all p xs ms (mem p inputs masks (step_all p a b ss) t)). apply IH; assumption.
Qed.
Lemma mem_length : forall p inputs masks ss t n, length ss = n -> Forall (fun l => length l = n) inputs ->
  Forall (fun l => length l = n) masks -> length (mem p inputs masks ss t) = n.
Proof.
  intros p inputs masks ss t. revert inputs masks ss. induction t as [|t IH]; intros inputs masks ss n Hs Hi Hm; [exact Hs|].
  destruct inputs as [|xs inputs]; [exact Hs|]. destruct masks as [|ms masks]; [exact Hs|]. cbn.
  apply IH; [|exact (Forall_inv_tail Hi)|exact (Forall_inv_tail Hm)].
  rewrite step_all_length. pose proof (Forall_inv Hi). pose proof (Forall_inv Hm). cbn in *. lia.
Qed.
(** What environment e sees. *)
Lemma mem_own : forall p inputs masks ss e (X : nat -> row) (B : nat -> bool) f T, shaped p ->
  (forall t, (t < T)%nat -> exists xs ms, nth_error inputs t = Some xs /\ nth_error masks t = Some ms /\
     nth_error xs e = Some (X t) /\ nth_error ms e = Some (mask_of (B t)) /\ length (X t) = length (weight_x p)) ->
  (exists s, nth_error ss e = Some s /\ agrees (n_hidden p) s f) ->
  forall t, (t <= T)%nat -> exists s, nth_error (mem p inputs masks ss t) e = Some s /\
    agrees (n_hidden p) s (recurrence p (fun k i => nth i (X k) 0) B f t).
Proof.
  intros p inputs masks ss e X B f T Sp HX H0 t. induction t as [|t IH]; intros Ht; [exact H0|].
  destruct (IH ltac:(lia)) as (s & Hs & As). destruct (HX t ltac:(lia)) as (xs & ms & E1 & E2 & E3 & E4 & E5).
  rewrite (mem_shift p inputs masks ss t xs ms E1 E2). exists (cell p (X t) (mask_of (B t)) s). split.
  - apply step_all_nth; assumption.
  - cbn [recurrence]. apply cell_ok; auto.
Qed.
