(** Proofs about learn and the initial population. *)
From Coq Require Import String List Arith ZArith QArith Bool Permutation Lia Lqa.
From Verif Require Import Base BaseFacts Space_Model Space_Spec Space_Proofs Space_Facts Opt_Model Opt_Spec Opt_Facts Opt_Facts2 DE_Model ES_Model RLI_Model RLI_Spec.
Import ListNotations.
Open Scope nat_scope.

Lemma traverse_perm {A B} (g : A -> option B) l l' : Permutation l l' -> forall i r, traverse (fun _ a => g a) i l = Some r ->
  forall j, exists r', traverse (fun _ a => g a) j l' = Some r' /\ Permutation r r'.
Proof.
  assert (SH : forall l i j, traverse (fun _ a => g a) i l = traverse (fun _ a => g a) j l).
  { clear. induction l as [|a l IH]; intros i j; cbn [traverse]; auto. rewrite (IH (S i) (S j)). reflexivity. }
  induction 1 as [|a l l' P IH|a b l|l l' l'' P1 IH1 P2 IH2]; intros i r H j.
  - exists r. inversion H; subst. split; auto.
  - cbn [traverse] in *. apply bind_Some in H. destruct H as (x & Hx & H). apply bind_Some in H. destruct H as (xs & Hs & H).
    inversion H; subst. destruct (IH _ _ Hs (S j)) as (ys & Hy & Py). rewrite Hx, Hy. cbn [bind]. exists (x :: ys). split; auto.
  - cbn [traverse] in *. apply bind_Some in H. destruct H as (x & Hx & H). apply bind_Some in H. destruct H as (xs & Hs & H).
    apply bind_Some in Hs. destruct Hs as (y & Hy & Hs). apply bind_Some in Hs. destruct Hs as (ys & Hys & Hs).
    inversion Hs; subst. inversion H; subst. rewrite Hy, Hx. cbn [bind]. rewrite (SH l (S (S j)) (S (S i))), Hys. cbn [bind].
    exists (y :: x :: ys). split; auto. constructor.
  - destruct (IH1 _ _ H 0) as (r1 & H1 & Q1). destruct (IH2 _ _ H1 j) as (r2 & H2 & Q2). exists r2. split; auto.
    eapply Permutation_trans; eauto.
Qed.

Lemma traverse_seq {A} (l : list A) : forall pre i, traverse (fun _ i => nth_error (pre ++ l) i) i (seq (length pre) (length l)) = Some l.
Proof.
  induction l as [|a l IH]; intros pre i; auto. cbn [length seq traverse].
  rewrite nth_error_app2, Nat.sub_diag by lia. cbn [nth_error bind].
  specialize (IH (pre ++ [a]) (S i)). rewrite app_length in IH. cbn [length] in IH.
  replace (length pre + 1) with (S (length pre)) in IH by lia. rewrite <- app_assoc in IH. cbn [app] in IH.
  rewrite IH. reflexivity.
Qed.

Section Learn.
Context (order : list Q -> list nat) (SO : sorts order).

Lemma sorted_df_spec m rows : exists df, sorted_df order m rows = Some df /\ Permutation rows df /\
  forall i j a b, i <= j -> nth_error df i = Some a -> nth_error df j = Some b -> as_good m (snd a) (snd b).
Proof.
  unfold sorted_df. set (keys := match m with Mmin => _ | Mmax => _ end).
  assert (KL : length keys = length rows) by (unfold keys; destruct m; rewrite map_length; auto).
  assert (KN : forall a r, nth_error rows a = Some r -> nth_error keys a = Some (as_min m (snd r))).
  { intros a r H. unfold keys. destruct m; rewrite nth_error_map, H; reflexivity. }
  destruct (SO keys) as [P S]. rewrite KL in P.
  destruct (traverse_perm (fun i => nth_error rows i) (seq 0 (length rows)) (order keys)) with (i := 0) (r := rows) (j := 0) as (df & E & PD).
  { apply Permutation_sym; auto. } { apply (traverse_seq rows []). }
  exists df. split; auto. split; auto. intros i j a b L Ha Hb.
  pose proof (traverse_spec _ _ _ _ E) as [TL TN].
  assert (G : forall k z, nth_error df k = Some z -> exists w, nth_error (order keys) k = Some w /\ nth_error keys w = Some (as_min m (snd z))).
  { intros k z Hz. destruct (nth_error (order keys) k) as [w|] eqn:Ew.
    - exists w. split; auto. destruct (TN _ _ Ew) as (z' & Hz' & Hw). apply KN. congruence.
    - apply nth_error_None in Ew. assert (k < length df) by (apply nth_error_Some; congruence). lia. }
  destruct (G _ _ Ha) as (wa & A1 & A2). destruct (G _ _ Hb) as (wb & B1 & B2).
  pose proof (S i j wa wb _ _ L A1 B1 A2 B2) as R. destruct m; cbn [as_min as_good] in *; lra.
Qed.

Lemma index_of_spec v cs : (exists c, In c cs /\ same c v) -> exists n c, index_of v cs = Some n /\ nth_error cs n = Some c /\ same c v.
Proof.
  induction cs as [|a cs IH]; intros (c & Hc & Hs); [destruct Hc|]. cbn [index_of].
  destruct (veqb a v) eqn:E.
  - apply veqb_same in E. exists 0, a. auto.
  - destruct Hc as [<-|Hc]; [apply veqb_same in Hs; congruence|].
    destruct IH as (n & c' & E1 & E2 & E3); [eauto|]. rewrite E1. exists (S n), c'. auto.
Qed.

Lemma index_encode_gen mp b x : mapped mp b -> valid b x ->
  exists e, index_encode b x = Some e /\ Forall2 (fun kp v => valid_coord (encode_param (snd kp)) v) b e /\
    exists x', decode_from 0 e b mp = Some x' /\ Forall2 same x' x.
Proof.
  intros M V. induction V as [|[k pr] v b x Hv V IH].
  - exists []. split; [reflexivity|]. split; [constructor|]. exists []. auto.
  - destruct IH as (e & E1 & E2 & x' & E3 & E4); [eapply mapped_tl; eauto|].
    assert (exists w v', (match pr with PGrid cs => let* n := index_of v cs in Some (VNum (inject_Z (Z.of_nat n))) | _ => Some v end) = Some w /\
              valid_coord (encode_param pr) w /\ dec1 pr w = Some v' /\ same v' v) as (w & v' & W1 & W2 & W3 & W4).
    { destruct pr as [lo hi|lo hi|cs]; cbn [snd] in Hv.
      - exists v, v. cbn [dec1]. auto using same_refl.
      - exists v, v. cbn [dec1]. auto using same_refl.
      - destruct (index_of_spec v cs Hv) as (n & c & I1 & I2 & I3). rewrite I1. cbn [bind].
        assert (n < length cs) by (apply nth_error_Some; congruence).
        exists (VNum (inject_Z (Z.of_nat n))), c. split; auto. split.
        + cbn [encode_param valid_coord]. eexists; split; [reflexivity|]. split; [exists (Z.of_nat n); reflexivity|]. split.
          * change 0%Q with (inject_Z 0). rewrite <- Zle_Qle. lia.
          * assert (inject_Z (Z.of_nat n) + 1 <= inject_Z (Z.of_nat (length cs)))%Q; [|lra].
            change 1%Q with (inject_Z 1). rewrite <- inject_Z_plus, <- Zle_Qle. lia.
        + split; auto. cbn [dec1]. rewrite (iget_combine cs 0 _ n) by reflexivity. exact I2. }
    exists (w :: e). cbn [index_encode]. rewrite W1. cbn [bind]. rewrite E1. cbn [bind]. split; auto. split; [constructor; auto|].
    exists (v' :: x'). rewrite decode_cons, W3, E3 by auto. split; auto.
Qed.

Lemma no_grid_encoded b x : has_grid b = false -> valid b x ->
  valid (fst (encode_grid_to_discrete b)) x /\ forall mp, decode_from 0 x b mp = Some x.
Proof.
  intros G V. induction V as [|[k pr] v b x Hv V IH].
  - split; [constructor|reflexivity].
  - cbn [has_grid existsb snd] in G. apply orb_false_iff in G. destruct G as [G1 G2].
    destruct (IH G2) as [I1 I2]. split.
    + constructor; [|exact I1]. cbn [fst snd]. destruct pr; try discriminate; exact Hv.
    + intros mp. cbn [decode_from nth_error]. rewrite decode_shift, I2. destruct pr; try discriminate; reflexivity.
Qed.

(** What learn keeps. *)
Lemma learn_spec m b lx lr f : dict b -> Forall (valid b) lx -> length lx = length lr ->
  exists data kept rest, rl_learn order m m b lx lr f = Some data /\
    Permutation (combine lx lr) (kept ++ rest) /\ length kept = Nat.min f (length lx) /\
    (forall k r, In k kept -> In r rest -> as_good m (snd k) (snd r)) /\
    (forall i j a c, i <= j -> nth_error kept i = Some a -> nth_error kept j = Some c -> as_good m (snd a) (snd c)) /\
    Forall2 (fun xr d => valid (fst (encode_grid_to_discrete b)) d /\
               exists x, decode_discrete_to_grid d b (snd (encode_grid_to_discrete b)) = Some x /\ same_indv x (fst xr))
      kept data.
Proof.
  intros D V L. destruct (sorted_df_spec m (combine lx lr)) as (df & E & P & S).
  assert (DL : length df = length lx).
  { apply Permutation_length in P. rewrite combine_length in P. lia. }
  set (kept := if length df <? f then df else firstn f df).
  set (rest := if length df <? f then [] else skipn f df).
  assert (KR : df = kept ++ rest).
  { unfold kept, rest. destruct (length df <? f); [rewrite app_nil_r|rewrite firstn_skipn]; auto. }
  assert (KL : length kept = Nat.min f (length lx)).
  { unfold kept. destruct (Nat.ltb_spec (length df) f); [|rewrite firstn_length]; lia. }
  assert (NTH : forall i j a c, i <= j -> nth_error kept i = Some a -> nth_error kept j = Some c -> as_good m (snd a) (snd c)).
  { intros i j a c Lij Ha Hc. eapply S; [exact Lij| |]; rewrite KR, nth_error_app1; auto; apply nth_error_Some; congruence. }
  assert (KV : Forall (fun xr => valid b (fst xr)) kept).
  { apply Forall_forall. intros xr Hx. rewrite Forall_forall in V. apply V.
    assert (In xr (combine lx lr)). { eapply Permutation_in; [apply Permutation_sym; exact P|]. rewrite KR. apply in_app_iff; auto. }
    destruct xr as [x r]. eapply in_combine_l; eauto. }
  assert (OUT : exists data, (if has_grid b then traverse (fun _ x => index_encode b x) 0 (map fst kept) else Some (map fst kept)) = Some data /\
     Forall2 (fun xr d => valid (fst (encode_grid_to_discrete b)) d /\
               exists x, decode_discrete_to_grid d b (snd (encode_grid_to_discrete b)) = Some x /\ same_indv x (fst xr)) kept data).
  { destruct (has_grid b) eqn:G.
    - destruct (traverse_total (fun _ x => index_encode b x) (valid b) (map fst kept) 0) as (data & ED).
      { intros _ a Ha. destruct (index_encode_gen _ b a (dget_encode b D) Ha) as (e & E1 & _). eauto. }
      { apply Forall_forall. intros x Hx. apply in_map_iff in Hx. destruct Hx as (xr & <- & Hx). rewrite Forall_forall in KV. auto. }
      exists data. split; auto. pose proof (traverse_spec _ _ _ _ ED) as [TL TN].
      clear - KV ED D. revert data ED. generalize 0 as i. induction KV as [|xr kept Hv KV IH]; intros i data ED; cbn [map traverse] in ED.
      { inversion ED; constructor. }
      apply bind_Some in ED. destruct ED as (e & He & ED). apply bind_Some in ED. destruct ED as (es & Hes & ED). inversion ED; subst.
      constructor; [|eapply IH; eauto]. destruct (index_encode_gen _ b (fst xr) (dget_encode b D) Hv) as (e' & E1 & E2 & x' & E3 & E4).
      assert (e' = e) by congruence. subst e'. split; [apply valid_encoded; auto|]. exists x'. split; auto.
    - exists (map fst kept). split; auto. clear - KV G. induction KV as [|xr kept Hv KV IH]; simpl; constructor; auto.
      destruct (no_grid_encoded b (fst xr) G Hv) as [A B]. split; auto. exists (fst xr). split; [apply B|].
      clear. induction (fst xr); constructor; auto. apply same_refl. }
  destruct OUT as (data & OE & OF). exists data, kept, rest. split.
  { assert (NE : length lx =? length lr = true) by (apply Nat.eqb_eq; auto).
    unfold rl_learn. rewrite NE, E. cbn [bind]. cbv zeta. fold kept. destruct m; exact OE. }
  split; [rewrite <- KR; auto|]. split; auto. split; [|split; auto].
  intros k r Hk Hr. apply In_nth_error in Hk. destruct Hk as [i Hi]. apply In_nth_error in Hr. destruct Hr as [j Hj].
  assert (i < length kept) by (apply nth_error_Some; congruence).
  apply (S i (length kept + j) k r); [lia| |]; rewrite KR.
  - rewrite nth_error_app1; auto.
  - rewrite nth_error_app2 by lia. replace (length kept + j - length kept) with j by lia. auto.
Qed.

Lemma learn_modes m em b lx lr f : m <> em -> rl_learn order m em b lx lr f = None.
Proof. destruct m, em; simpl; congruence. Qed.
End Learn.

(** Sequences of calls. *)
Lemma calls_spec order m b cs : forall st k o, nth_error (rl_calls order m b st cs) k = Some o ->
  nth_error cs k = Some CEvolute ->
  (o = st /\ forall j em lx lr f, j < k -> nth_error cs j = Some (CLearn em lx lr f) -> rl_learn order m em b lx lr f = None) \/
  (exists j em lx lr f, j < k /\ nth_error cs j = Some (CLearn em lx lr f) /\ o = rl_learn order m em b lx lr f /\ o <> None /\
     forall i em lx lr f, j < i -> i < k -> nth_error cs i = Some (CLearn em lx lr f) -> rl_learn order m em b lx lr f = None).
Proof.
  induction cs as [|c cs IH]; intros st k o H HE; [destruct k; discriminate|]. cbn [rl_calls] in H.
  destruct (rl_call order m b st c) as [st' o'] eqn:EC. destruct k as [|k]; cbn [nth_error] in H, HE.
  - inversion HE; subst c. inversion H; subst. cbn [rl_call] in EC. inversion EC; subst. left. split; auto. lia.
  - destruct (IH st' k o H HE) as [[-> A]|(j & em & lx & lr & f & Lj & Hj & Eo & Ne & A)].
    + destruct c as [em lx lr f|]; cbn [rl_call] in EC.
      * destruct (rl_learn order m em b lx lr f) as [d|] eqn:EL; inversion EC; subst.
        -- right. exists 0, em, lx, lr, f. split; [lia|]. split; auto. split; auto. split; [congruence|].
           intros [|i] em' lx' lr' f' L1 L2 Hi; [lia|]. cbn [nth_error] in Hi. eapply (A i); eauto. lia.
        -- left. split; auto. intros [|j] em' lx' lr' f' L1 Hj; cbn [nth_error] in Hj; [inversion Hj; subst; auto|]. eapply (A j); eauto. lia.
      * inversion EC; subst. left. split; auto. intros [|j] em' lx' lr' f' L1 Hj; cbn [nth_error] in Hj; [discriminate|]. eapply (A j); eauto. lia.
    + right. exists (S j), em, lx, lr, f. split; [lia|]. split; auto. split; auto. split; auto.
      intros [|i] em' lx' lr' f' L1 L2 Hi; [lia|]. cbn [nth_error] in Hi. eapply (A i); eauto; lia.
Qed.

(** The initial population. *)
Lemma nums_valid b x : has_grid b = false -> valid b x -> exists v, nums x = Some v /\ x = map VNum v /\ feasible (space_dims b) v.
Proof.
  unfold nums. generalize 0 as i. intros i G V. revert i G. induction V as [|[k pr] v b x Hv V IH]; intros i G; cbn [traverse].
  - exists []. split; [reflexivity|]. split; [reflexivity|]. constructor.
  - cbn [has_grid existsb snd] in G. apply orb_false_iff in G. destruct G as [G1 G2].
    destruct (IH (S i) G2) as (w & W1 & W2 & W3). cbn [snd] in Hv.
    destruct pr as [lo hi|lo hi|cs]; [| |discriminate].
    + destruct Hv as (q & -> & Hi & H1 & H2). cbn [bind]. rewrite W1. cbn [bind]. exists (q :: w). split; auto. split; [simpl; congruence|].
      constructor; auto.
    + destruct Hv as (q & -> & H1 & H2). cbn [bind]. rewrite W1. cbn [bind]. exists (q :: w). split; auto. split; [simpl; congruence|].
      constructor; auto. cbn. split; auto. split; auto. discriminate.
Qed.

Lemma init_spec b npop data draw : has_grid b = false -> data <> [] -> Forall (valid b) data ->
  exists x0 init, rl_x0 npop data draw = Some x0 /\ init_x0 b x0 = Some init /\ length init = npop /\
    Forall (feasible (space_dims b)) init /\ forall v, In v init -> In (map VNum v) data.
Proof.
  intros G NE V. unfold rl_x0.
  destruct (traverse_total (fun _ i => choice data (draw i)) (fun _ => True) (seq 0 npop) 0) as (x0 & E).
  { intros _ i _. destruct (choice_total data (draw i) NE) as (x & ->). eauto. } { apply Forall_forall; auto. }
  exists x0. assert (XD : Forall (fun x => In x data) x0).
  { eapply traverse_Forall with (P := fun _ => True); [|apply Forall_forall; auto|exact E].
    intros k a x _ Hx. exact (choice_In data (draw a) x Hx). }
  assert (XL : length x0 = npop). { apply traverse_spec in E. destruct E as [E _]. rewrite seq_length in E. auto. }
  assert (ST : forall (k : nat) x, In x data -> exists v, (if check_mixed_individual x b then (if has_grid b then let* e := encode_grid_indv_to_discrete x b (snd (encode_grid_to_discrete b)) in nums e else nums x) else None) = Some v /\ x = map VNum v /\ feasible (space_dims b) v).
  { intros _ x Hx. rewrite Forall_forall in V. assert (C : check_mixed_individual x b = true).
    { apply check_spec. rewrite <- (valid_length _ _ (V _ Hx)), firstn_all. auto. }
    rewrite C, G. apply nums_valid; auto. }
  unfold init_x0.
  destruct (traverse_total (fun _ x => if check_mixed_individual x b then (if has_grid b then let* e := encode_grid_indv_to_discrete x b (snd (encode_grid_to_discrete b)) in nums e else nums x) else None) (fun x => In x data) x0 0) as (init & EI).
  { intros k x Hx. destruct (ST k x Hx) as (v & Hv & _). eauto. } { exact XD. }
  exists init. split; auto. split; auto. split.
  { apply traverse_spec in EI. destruct EI as [EI _]. lia. }
  assert (R : Forall (fun v => In (map VNum v) data /\ feasible (space_dims b) v) init).
  { eapply traverse_Forall with (P := fun x => In x data); [|exact XD|exact EI].
    intros k x v Hx Hv. destruct (ST k x Hx) as (v' & Hv' & Ex & Fe). rewrite Hv in Hv'. inversion Hv'; subst v'. rewrite <- Ex. auto. }
  rewrite Forall_forall in R. split; [apply Forall_forall; intros v Hv; apply R; auto|]. intros v Hv. apply R; auto.
Qed.

(** With a grid of strings the encoded rows are refused as x0. *)
Lemma encoded_refused b x i k pr : nth_error b i = Some (k, pr) -> string_grid pr -> valid (fst (encode_grid_to_discrete b)) x ->
  check_mixed_individual x b = false.
Proof.
  intros Hb (cs & -> & Hs) V. apply not_true_is_false. intros C. apply check_spec in C.
  assert (L : length x = length b). { apply valid_length in V. rewrite V. unfold encode_grid_to_discrete. cbn [fst]. apply map_length. }
  rewrite <- L, firstn_all in C.
  assert (exists v, nth_error x i = Some v /\ valid_coord (PGrid cs) v /\ valid_coord (encode_param (PGrid cs)) v) as (v & _ & V1 & V2).
  { apply valid_encoded in V. clear - Hb C V. revert i x Hb C V. induction b as [|kp b IH]; intros [|i] x Hb C V; try discriminate;
      inversion C as [|? ? ? ? C1 C2]; inversion V as [|? ? ? ? V1 V2]; subst; cbn [nth_error] in Hb.
    - inversion Hb; subst kp. cbn [snd] in *. match goal with H : _ :: _ = _ :: _ |- _ => inversion H; subst end. exists y. auto.
    - match goal with H : _ :: _ = _ :: _ |- _ => inversion H; subst end. cbn [nth_error]. eapply IH; eauto. }
  destruct V1 as (c & Hc & Sc). destruct (Hs c Hc) as (s & ->). destruct V2 as (q & -> & _). exact Sc.
Qed.

Lemma grid_raises b npop data draw i k pr x0 : nth_error b i = Some (k, pr) -> string_grid pr -> 1 <= npop ->
  Forall (valid (fst (encode_grid_to_discrete b))) data -> rl_x0 npop data draw = Some x0 -> init_x0 b x0 = None.
Proof.
  intros Hb Hs N V E. unfold rl_x0 in E. destruct npop as [|npop]; [lia|]. cbn [seq traverse] in E.
  apply bind_Some in E. destruct E as (x & Hx & E). apply bind_Some in E. destruct E as (xs & _ & E). inversion E; subst.
  unfold init_x0. cbn [traverse]. rewrite (encoded_refused b x i k pr Hb Hs); [reflexivity|].
  rewrite Forall_forall in V. apply V. eapply choice_In; eauto.
Qed.
