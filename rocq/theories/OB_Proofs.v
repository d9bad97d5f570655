From Coq Require Import String List Arith QArith Bool Lia FinFun.
From Verif Require Import OB_Model OB_Spec.
Import ListNotations.
Open Scope list_scope. Open Scope nat_scope.

Lemma all_some_map : forall {A B} (f : A -> option B) (g : A -> B) l, (forall a, In a l -> f a = Some (g a)) -> all_some (map f l) = Some (map g l).
Proof.
  induction l as [|a l IH]; intros H; [reflexivity|]. cbn [map all_some]. rewrite (H a) by (left; reflexivity).
  rewrite IH by (intros b Hb; apply H; right; exact Hb). reflexivity.
Qed.
Lemma key_eqb_spec : forall a b, key_eqb a b = true <-> a = b.
Proof.
  intros [|i|s] [|j|u]; cbn [key_eqb]; try (split; congruence).
  - rewrite Nat.eqb_eq. split; congruence.
  - rewrite String.eqb_eq. split; congruence.
Qed.
Lemma key_eqb_refl : forall a, key_eqb a a = true. Proof. intros; apply key_eqb_spec; reflexivity. Qed.
Lemma kget_in : forall {V} (d : list (key * V)) k v, NoDup (map fst d) -> In (k, v) d -> kget k d = Some v.
Proof.
  induction d as [|[j w] d IH]; intros k v H Hin; [contradiction|]. cbn [map fst] in H. inversion H as [|x l N D]; subst. cbn [kget].
  destruct Hin as [E|Hin]; [injection E as -> ->; rewrite key_eqb_refl; reflexivity|].
  destruct (key_eqb k j) eqn:E; [|apply IH; auto]. apply key_eqb_spec in E. subst j. exfalso. apply N. apply (in_map fst) in Hin. exact Hin.
Qed.
(** ** Assignment of an array of the right shape *)
Lemma chunks_concat : forall k len d, length d = k * len -> List.concat (chunks k len d) = d.
Proof.
  induction k as [|k IH]; intros len d H; cbn [chunks List.concat]; [destruct d; [reflexivity|discriminate]|].
  rewrite IH by (rewrite skipn_length; cbn in H; lia). apply firstn_skipn.
Qed.
Lemma chunks_len : forall k len d x, length d = k * len -> In x (chunks k len d) -> length x = len.
Proof.
  induction k as [|k IH]; intros len d x H Hx; [contradiction|]. cbn [chunks] in Hx. cbn in H. destruct Hx as [<-|Hx].
  - rewrite firstn_length. lia.
  - eapply IH; [|exact Hx]. rewrite skipn_length. lia.
Qed.
Lemma broadcast_id : forall s d, length d = size s -> broadcast s s d = Some d.
Proof.
  induction s as [|a s IH]; intros d H; [reflexivity|]. cbn [broadcast]. rewrite Nat.eqb_refl. cbn [size fold_right] in H. fold (size s) in H.
  rewrite (all_some_map _ (fun x => x)).
  - rewrite map_id. cbn [option_map]. rewrite chunks_concat by exact H. reflexivity.
  - intros x Hx. apply IH. eapply chunks_len; eauto.
Qed.
Lemma assign_id : forall s a, shape a = s -> length (data a) = size s -> assign s a = Some (data a).
Proof. intros s a H L. unfold assign. rewrite H, Nat.leb_refl, Nat.sub_diag. cbn [repeat app]. apply broadcast_id. exact L. Qed.

Section Cast.
Variable cast : dtype -> Q -> Q.
Definition parts (k : key) (o : obs) : arr := match part k o with Some a => a | None => Arr [] [] end.
Definition cells (k : key) (b : box) (o : obs) : list Q := map (cast (snd b)) (data (parts k o)).
Definition fit_info (inf : list (key * box)) (o : obs) : Prop :=
  forall k b, In (k, b) inf -> exists a, part k o = Some a /\ shape a = fst b /\ length (data a) = size (fst b).
Lemma save_one : forall bufs i o, fit_info (map (fun p => (fst p, fst (snd p))) bufs) o ->
  save_obs cast i o bufs = Some (map (fun p => (fst p, (fst (snd p), put i (cells (fst p) (fst (snd p)) o) (snd (snd p))))) bufs).
Proof.
  induction bufs as [|[k [b rows]] bufs IH]; intros i o H; [reflexivity|]. cbn [save_obs map fst snd].
  destruct (H k b) as [a [P [S L]]]; [left; reflexivity|]. rewrite P. rewrite (assign_id _ _ S L).
  rewrite IH by (intros k' b' Hin; apply H; right; exact Hin). unfold cells, parts. rewrite P. reflexivity.
Qed.
Fixpoint fill {V} (i : nat) (l : list V) (rows : list V) : list V := match l with [] => rows | v :: r => fill (S i) r (put i v rows) end.
Lemma save_many : forall os i bufs, (forall o, In o os -> fit_info (map (fun p => (fst p, fst (snd p))) bufs) o) ->
  save_all cast i os bufs = Some (map (fun p => (fst p, (fst (snd p), fill i (map (cells (fst p) (fst (snd p))) os) (snd (snd p))))) bufs).
Proof.
  induction os as [|o os IH]; intros i bufs H.
  - cbn [save_all map fill]. f_equal. rewrite <- (map_id bufs) at 1. apply map_ext. intros [k [b rows]]; reflexivity.
  - cbn [save_all]. rewrite save_one by (apply H; left; reflexivity). rewrite IH.
    + f_equal. rewrite map_map. apply map_ext. intros [k [b rows]]; reflexivity.
    + intros o' Ho'. rewrite map_map. cbn [fst snd]. apply H. right. exact Ho'.
Qed.
Lemma put_length : forall {V} i (v : V) l, length (put i v l) = length l.
Proof. induction i as [|i IH]; intros v [|x l]; cbn [put length]; try reflexivity. rewrite IH. reflexivity. Qed.
Lemma put_firstn : forall {V} i (v : V) l, i < length l -> firstn (S i) (put i v l) = firstn i l ++ [v].
Proof. induction i as [|i IH]; intros v [|x l] H; cbn [length] in H; try lia; [reflexivity|]. cbn [put]. change (firstn (S (S i)) (x :: put i v l)) with (x :: firstn (S i) (put i v l)). rewrite IH by lia. reflexivity. Qed.
Lemma put_skipn : forall {V} i j (v : V) l, i < j -> skipn j (put i v l) = skipn j l.
Proof. induction i as [|i IH]; intros [|j] v [|x l] H; try lia; try reflexivity. cbn [put skipn]. apply IH. lia. Qed.
Lemma fill_eq : forall {V} (l : list V) i rows, i + length l <= length rows -> fill i l rows = firstn i rows ++ l ++ skipn (i + length l) rows.
Proof.
  induction l as [|v l IH]; intros i rows H; cbn [fill].
  - cbn [length app]. rewrite Nat.add_0_r, firstn_skipn. reflexivity.
  - cbn [length] in H. rewrite IH by (rewrite put_length; lia). rewrite put_firstn by lia.
    rewrite put_skipn by lia. rewrite <- app_assoc. cbn [app]. cbn [length]. replace (S i + length l) with (i + S (length l)) by lia. reflexivity.
Qed.
Lemma fill_all : forall {V} (l : list V) rows, length rows = length l -> fill 0 l rows = l.
Proof. intros V l rows H. rewrite fill_eq by lia. cbn [firstn app Nat.add]. rewrite <- H, skipn_all, app_nil_r. reflexivity. Qed.
(** The buffers after a round. *)
Definition filled (inf : list (key * box)) (os : list obs) : list (key * buffer) := map (fun p => (fst p, (snd p, map (cells (fst p) (snd p)) os))) inf.
Lemma save_round : forall s os bufs, buffers_of s (length os) bufs -> (forall o, In o os -> fit_info (info s) o) -> save_all cast 0 os bufs = Some (filled (info s) os).
Proof.
  intros s os bufs [E N] H. rewrite save_many by (rewrite E; exact H). f_equal. unfold filled. rewrite <- E, map_map. apply map_ext_in.
  intros [k [b rows]] Hin. cbn [fst snd]. rewrite fill_all; [reflexivity|]. rewrite map_length. rewrite Forall_forall in N. exact (N _ Hin).
Qed.
Lemma fresh_buffers : forall s n, buffers_of s n (buffers s n).
Proof.
  intros s n. unfold buffers_of, buffers. rewrite map_map. cbn [fst snd]. split.
  - rewrite <- (map_id (info s)) at 2. apply map_ext. intros [k b]; reflexivity.
  - apply Forall_forall. intros p Hp. apply in_map_iff in Hp. destruct Hp as [q [<- _]]. cbn [fst snd]. apply repeat_length.
Qed.
(** ** Keys *)
Lemma numbered_in : forall l i k b, In (k, b) (numbered i l) <-> exists j, k = KNum (i + j) /\ nth_error l j = Some b.
Proof.
  induction l as [|c l IH]; intros i k b; cbn [numbered].
  - split; [contradiction|]. intros [j [_ H]]. destruct j; discriminate.
  - split.
    + intros [E|H]; [injection E as <- <-; exists 0; rewrite Nat.add_0_r; split; reflexivity|].
      apply IH in H. destruct H as [j [-> H]]. exists (S j). split; [f_equal; lia|exact H].
    + intros [[|j] [-> H]]; cbn [nth_error] in H; [injection H as ->; left; rewrite Nat.add_0_r; reflexivity|].
      right. apply IH. exists j. split; [f_equal; lia|exact H].
Qed.
Lemma numbered_keys : forall l i, map fst (numbered i l) = map KNum (seq i (length l)).
Proof. induction l as [|c l IH]; intros i; cbn [numbered map length seq fst]; [reflexivity|]. rewrite IH. reflexivity. Qed.
Lemma info_entry : forall s k b, In (k, b) (info s) <-> entry s k b.
Proof.
  intros [c|d|l] k b; cbn [info entry].
  - split; [intros [E|[]]; injection E as <- <-; reflexivity|]. destruct k; try contradiction. intros ->; left; reflexivity.
  - rewrite in_map_iff. split.
    + intros [[n c] [E H]]. injection E as <- <-. exact H.
    + destruct k as [|i|n]; try contradiction. intros H. exists (n, b). split; [reflexivity|exact H].
  - rewrite numbered_in. split; [intros [j [-> H]]; exact H|]. destruct k as [|i|n]; try contradiction. intros H. exists i. split; [reflexivity|exact H].
Qed.
Lemma info_nodup : forall s, good_space s -> NoDup (map fst (info s)).
Proof.
  intros [c|d|l] H; cbn [info].
  - constructor; [intros []|constructor].
  - rewrite map_map. cbn [fst]. cbn [good_space] in H. induction d as [|[n b] d IH]; cbn [map fst] in *; [constructor|].
    inversion H as [|x y N D]; subst. constructor; [|apply IH; exact D]. intros Hin. apply N. apply in_map_iff in Hin. destruct Hin as [[m c] [E Hm]].
    injection E as ->. apply (in_map fst) in Hm. exact Hm.
  - rewrite numbered_keys. apply FinFun.Injective_map_NoDup; [intros a b E; injection E as ->; reflexivity|apply seq_NoDup].
Qed.
Lemma fits_info : forall s o, fits s o -> fit_info (info s) o.
Proof. intros s o H k b Hin. apply H. apply info_entry. exact Hin. Qed.
Lemma filled_get : forall s os k b, good_space s -> entry s k b -> kget k (filled (info s) os) = Some (b, map (cells k b) os).
Proof.
  intros s os k b Hg He. apply (kget_in (filled (info s) os) k (b, map (cells k b) os)).
  - unfold filled. rewrite map_map. cbn [fst]. apply info_nodup. exact Hg.
  - unfold filled. apply in_map_iff. exists (k, b). split; [reflexivity|]. apply (proj2 (info_entry s k b)). exact He.
Qed.
(** The combined observation. *)
Definition joined (os : list obs) (k : key) (b : box) : arr := Arr (length os :: fst b) (List.concat (map (cells k b) os)).
Definition combined (s : space) (os : list obs) : obs :=
  match s with
  | SBox b => OArr (joined os KNone b)
  | SDict d => ODict (map (fun p => (fst p, joined os (KName (fst p)) (snd p))) d)
  | STup l => OTup (map (fun i => joined os (KNum i) (nth i l (([], 0) : box))) (seq 0 (length l)))
  end.
Lemma array_cells : forall (b : box) k os, array_of (b, map (cells k b) os) = Arr (length os :: fst b) (List.concat (map (cells k b) os)).
Proof. intros. unfold array_of. cbn [fst snd]. rewrite map_length. reflexivity. Qed.
Lemma to_obs : forall s os, good_space s -> dict_to_obs s (filled (info s) os) = Some (combined s os).
Proof.
  intros s os Hg. unfold dict_to_obs, combined. destruct s as [b|d|l].
  - rewrite (filled_get (SBox b) os KNone b Hg eq_refl). cbn [option_map]. rewrite array_cells. reflexivity.
  - rewrite (all_some_map _ (fun p => (fst p, Arr (length os :: fst (snd p)) (List.concat (map (cells (KName (fst p)) (snd p)) os))))); [reflexivity|].
    intros [n b] Hin. cbn [fst snd]. rewrite (filled_get (SDict d) os (KName n) b Hg Hin). cbn [option_map]. rewrite array_cells. reflexivity.
  - rewrite (all_some_map _ (fun i => Arr (length os :: fst (nth i l ([], 0))) (List.concat (map (cells (KNum i) (nth i l ([], 0))) os)))); [reflexivity|].
    intros i Hi. apply in_seq in Hi. rewrite (filled_get (STup l) os (KNum i) (nth i l ([], 0)) Hg).
    + cbn [option_map]. rewrite array_cells. reflexivity.
    + cbn [entry]. apply nth_error_nth'. lia.
Qed.
Lemma dummy_next_eq : forall s os bufs, good_space s -> buffers_of s (length os) bufs -> (forall o, In o os -> fits s o) -> dummy_next cast s bufs os = Some (combined s os).
Proof.
  intros s os bufs Hg Hb H. unfold dummy_next. rewrite (save_round s os bufs Hb) by (intros o Ho; apply fits_info; auto). apply to_obs. exact Hg.
Qed.
Lemma dummy_eq : forall s os, good_space s -> (forall o, In o os -> fits s o) -> dummy_obs cast s os = Some (combined s os).
Proof. intros s os Hg H. apply (dummy_next_eq s os (buffers s (length os))); auto. apply fresh_buffers. Qed.
Lemma combined_part : forall s os k b, good_space s -> entry s k b -> part k (combined s os) = Some (Arr (length os :: fst b) (List.concat (map (cells k b) os))).
Proof.
  intros [c|d|l] os k b Hg He; cbn [entry] in He; destruct k as [|i|n]; try contradiction; cbn [combined part].
  - subst. reflexivity.
  - cbn [good_space] in Hg. revert Hg He. induction d as [|[m c] d IH]; intros Hg He; [contradiction|].
    cbn [map find fst snd]. cbn [map fst] in Hg. inversion Hg as [|x y Nin D]; subst. destruct (String.eqb_spec n m) as [->|Nm].
    + destruct He as [E|He]; [injection E as ->; reflexivity|]. exfalso. apply Nin. apply (in_map fst) in He. exact He.
    + destruct He as [E|He]; [injection E as -> ->; contradiction|]. apply IH; auto.
  - assert (L : i < length l) by (apply nth_error_Some; congruence).
    rewrite (map_nth_error (fun i => joined os (KNum i) (nth i l (([], 0) : box))) i (seq 0 (length l)) (d := i)).
    + unfold joined. rewrite (nth_error_nth l i ([], 0) He). reflexivity.
    + rewrite (nth_error_nth' _ 0) by (rewrite seq_length; lia). rewrite seq_nth by lia. reflexivity.
Qed.
Lemma combined_keys : forall s os, keys_of s (combined s os).
Proof. intros [c|d|l] os; cbn [combined keys_of]; auto; [rewrite map_map; reflexivity|rewrite map_length, seq_length; reflexivity]. Qed.
Lemma concat_row : forall n (ls : list (list Q)) i x, (forall l, In l ls -> length l = n) -> nth_error ls i = Some x -> firstn n (skipn (i * n) (List.concat ls)) = x.
Proof.
  induction ls as [|l ls IH]; intros i x H Hi; [destruct i; discriminate|].
  assert (Hl : length l = n) by (apply H; left; reflexivity). destruct i as [|i]; cbn [nth_error List.concat] in *.
  - injection Hi as ->. cbn [Nat.mul skipn]. rewrite firstn_app, Hl, Nat.sub_diag. cbn [firstn]. rewrite app_nil_r. rewrite <- Hl. apply firstn_all.
  - rewrite skipn_app, Hl. rewrite skipn_all2 by (rewrite Hl; cbn; lia). cbn [app]. replace (S i * n - n) with (i * n) by (cbn; lia). apply IH; auto. intros m Hm; apply H; right; exact Hm.
Qed.
Lemma combined_rows : forall s os k b i o a, good_space s -> (forall o, In o os -> fits s o) -> entry s k b -> nth_error os i = Some o -> part k o = Some a ->
  forall r, part k (combined s os) = Some r -> shape r = length os :: fst b /\ row i r = map (cast (snd b)) (data a).
Proof.
  intros s os k b i o a Hg Hf He Ho Ha r Hr. rewrite (combined_part s os k b Hg He) in Hr. injection Hr as <-. split; [reflexivity|].
  unfold row. cbn [shape data tl].
  apply concat_row.
  - intros l Hl. apply in_map_iff in Hl. destruct Hl as [o' [<- Ho']]. unfold cells, parts. rewrite map_length.
    destruct (Hf o' Ho' k b He) as [a' [P [S L]]]. rewrite P. exact L.
  - rewrite (map_nth_error (cells k b) i os Ho). unfold cells, parts. rewrite Ha. reflexivity.
Qed.
(** ** Both *)
Lemma stack_eq : forall l s, l <> [] -> (forall a, In a l -> shape a = s) -> stack l = Some (Arr (length l :: s) (List.concat (map data l))).
Proof.
  intros [|a l] s Hl H; [contradiction|]. unfold stack. rewrite (H a) by (left; reflexivity).
  replace (forallb _ (a :: l)) with true; [reflexivity|]. symmetry. apply forallb_forall. intros b Hb. unfold shape_eqb. rewrite (H b Hb). destruct (list_eq_dec Nat.eq_dec s s); [reflexivity|contradiction].
Qed.
Lemma stack_parts : forall s os k b, os <> [] -> (forall o, In o os -> fits s o) -> (forall o, In o os -> typed cast s o) -> entry s k b ->
  match all_some (map (part k) os) with Some l => stack l | None => None end = Some (Arr (length os :: fst b) (List.concat (map (cells k b) os))).
Proof.
  intros s os k b Hn Hf Ht He. rewrite (all_some_map _ (parts k)).
  - rewrite (stack_eq _ (fst b)).
    + rewrite map_length, map_map. do 3 f_equal. apply map_ext_in. intros o Ho. unfold cells. symmetry. destruct (Hf o Ho k b He) as [a [P _]]. unfold parts. rewrite P. apply (Ht o Ho k b a He P).
    + destruct os; [contradiction|discriminate].
    + intros a Ha. apply in_map_iff in Ha. destruct Ha as [o [<- Ho]]. destruct (Hf o Ho k b He) as [a [P [S L]]]. unfold parts. rewrite P. exact S.
  - intros o Ho. destruct (Hf o Ho k b He) as [a [P _]]. unfold parts. rewrite P. reflexivity.
Qed.
Lemma flatten_eq : forall s os, os <> [] -> (forall o, In o os -> fits s o) -> (forall o, In o os -> typed cast s o) -> flatten_obs s os = Some (combined s os).
Proof.
  intros s os Hn Hf Ht. unfold flatten_obs. destruct os as [|o0 os0] eqn:Eos; [contradiction|]. rewrite <- Eos in *. clear Eos.
  destruct s as [b|d|l]; cbn [combined].
  - pose proof (stack_parts (SBox b) os KNone b Hn Hf Ht eq_refl) as E. destruct (all_some (map (part KNone) os)); [|discriminate]. rewrite E. reflexivity.
  - rewrite (all_some_map _ (fun p => (fst p, Arr (length os :: fst (snd p)) (List.concat (map (cells (KName (fst p)) (snd p)) os))))); [reflexivity|].
    intros [n b] Hin. cbn [fst snd]. pose proof (stack_parts (SDict d) os (KName n) b Hn Hf Ht Hin) as E.
    destruct (all_some (map (part (KName n)) os)); [|discriminate]. rewrite E. reflexivity.
  - rewrite (all_some_map _ (fun i => Arr (length os :: fst (nth i l ([], 0))) (List.concat (map (cells (KNum i) (nth i l ([], 0))) os)))); [reflexivity|].
    intros i Hi. apply in_seq in Hi. apply (stack_parts (STup l) os (KNum i) (nth i l ([], 0)) Hn Hf Ht). cbn [entry]. apply nth_error_nth'. lia.
Qed.
Lemma same : forall s os, good_space s -> os <> [] -> (forall o, In o os -> fits s o) -> (forall o, In o os -> typed cast s o) ->
  exists r, dummy_obs cast s os = Some r /\ flatten_obs s os = Some r.
Proof. intros s os Hg Hn Hf Ht. exists (combined s os). split; [apply dummy_eq; auto|apply flatten_eq; auto]. Qed.
Lemma dummy_facts : forall s os, good_space s -> (forall o, In o os -> fits s o) ->
  exists r, dummy_obs cast s os = Some r /\ keys_of s r /\
  forall k b, entry s k b -> exists A, part k r = Some A /\ shape A = length os :: fst b /\
    forall i o a, nth_error os i = Some o -> part k o = Some a -> row i A = map (cast (snd b)) (data a).
Proof.
  intros s os Hg Hf. exists (combined s os). split; [apply dummy_eq; auto|]. split; [apply combined_keys|].
  intros k b He. eexists. split; [apply (combined_part s os k b Hg He)|]. split; [reflexivity|].
  intros i o a Ho Ha. eapply combined_rows; eauto. apply combined_part; assumption.
Qed.
Lemma history : forall s os bufs, good_space s -> buffers_of s (length os) bufs -> (forall o, In o os -> fits s o) -> dummy_next cast s bufs os = dummy_obs cast s os.
Proof. intros s os bufs Hg Hb Hf. rewrite dummy_eq by auto. apply dummy_next_eq; auto. Qed.
Lemma kept : forall s os bufs b', buffers_of s (length os) bufs -> (forall o, In o os -> fits s o) -> save_all cast 0 os bufs = Some b' -> buffers_of s (length os) b'.
Proof.
  intros s os bufs b' Hb Hf H. rewrite (save_round s os bufs Hb) in H by (intros o Ho; apply fits_info; auto). injection H as <-.
  split; unfold filled.
  - rewrite map_map. cbn [fst snd]. rewrite <- (map_id (info s)) at 2. apply map_ext. intros [k b]; reflexivity.
  - apply Forall_forall. intros p Hp. apply in_map_iff in Hp. destruct Hp as [q [<- _]]. cbn [fst snd]. apply map_length.
Qed.
End Cast.
Lemma flatten_shapes : forall s os k b i j o p a c, flatten_obs s os <> None -> entry s k b -> nth_error os i = Some o -> nth_error os j = Some p ->
  part k o = Some a -> part k p = Some c -> shape a = shape c.
Proof.
  intros s os k b i j o p a c Hn He Ho Hp Ha Hc.
  assert (G : match all_some (map (part k) os) with Some l => stack l | None => None end <> None).
  { unfold flatten_obs in Hn. destruct os as [|o0 os0] eqn:Eos; [contradiction|]. rewrite <- Eos in *.
    assert (AS : forall {A B} (f : A -> option B) l x, all_some (map f l) <> None -> In x l -> f x <> None).
    { clear. induction l as [|y l IH]; intros x H Hin; [contradiction|]. cbn [map all_some] in H. destruct (f y) eqn:E; [|contradiction].
      destruct Hin as [->|Hin]; [congruence|]. apply IH; auto. destruct (all_some (map f l)); [discriminate|exact H]. }
    destruct s as [b0|d|l]; cbn [entry] in He; destruct k as [|m|n]; try contradiction.
    - destruct (all_some (map (part KNone) os)); [|exfalso; apply Hn; reflexivity]. destruct (stack l); [discriminate|exfalso; apply Hn; reflexivity].
    - destruct (all_some (map _ d)) eqn:E; [|contradiction].
      pose proof (AS _ _ (fun p => match all_some (map (part (KName (fst p))) os) with Some l => option_map (pair (fst p)) (stack l) | None => None end) d (n, b)) as Q.
      specialize (Q ltac:(rewrite E; discriminate) He). cbn [fst] in Q. destruct (all_some (map (part (KName n)) os)); [|exfalso; apply Q; reflexivity]. destruct (stack l0); [discriminate|exfalso; apply Q; reflexivity].
    - destruct (all_some (map _ (seq 0 (length l)))) eqn:E; [|contradiction].
      pose proof (AS _ _ (fun i => match all_some (map (part (KNum i)) os) with Some l => stack l | None => None end) (seq 0 (length l)) m) as Q.
      apply Q; [rewrite E; discriminate|]. apply in_seq. assert (m < length l) by (apply nth_error_Some; congruence). lia. }
  destruct (all_some (map (part k) os)) as [l|] eqn:E; [|contradiction].
  assert (AN : forall {A B} (f : A -> option B) l r, all_some (map f l) = Some r -> forall i x, nth_error l i = Some x -> nth_error r i = f x).
  { clear. induction l as [|y l IH]; intros r H i x Hx; [destruct i; discriminate|]. cbn [map all_some] in H. destruct (f y) eqn:E; [|discriminate].
    destruct (all_some (map f l)) as [r'|] eqn:E2; [|discriminate]. injection H as <-. destruct i as [|i]; cbn [nth_error] in *; [injection Hx as ->; congruence|]. eapply IH; eauto. }
  pose proof (AN _ _ (part k) os l E i o Ho) as H1. rewrite Ha in H1. pose proof (AN _ _ (part k) os l E j p Hp) as H2. rewrite Hc in H2.
  unfold stack in G. destruct l as [|a0 l0]; [contradiction|]. destruct (forallb _ _) eqn:F in G; [|contradiction].
  rewrite forallb_forall in F. pose proof (F _ (nth_error_In _ _ H1)) as F1. pose proof (F _ (nth_error_In _ _ H2)) as F2. unfold shape_eqb in F1, F2.
  destruct (list_eq_dec Nat.eq_dec (shape a) (shape a0)); [|discriminate]. destruct (list_eq_dec Nat.eq_dec (shape c) (shape a0)); [|discriminate]. congruence.
Qed.
