(** Proofs about the evolutionary tuner. *)
From Coq Require Import String List Arith ZArith QArith Bool Lia Lqa.
From Verif Require Import Base BaseFacts Space_Model Space_Spec Space_Facts Space_Proofs Opt_Model Opt_Spec Opt_Facts Opt_Facts2 ES_Model ES_Spec ES_Proofs Tune_Model Tune_Spec Tune_Proofs ET_Model ET_Spec.
Import ListNotations.
Open Scope nat_scope.

Lemma wf_dims_of b : wf_space b -> wf_dims (dims_of b).
Proof.
  unfold wf_space, wf_dims, dims_of. intros W. rewrite Forall_forall in *. intros d Hd. apply in_map_iff in Hd. destruct Hd as ((k & p) & <- & H).
  specialize (W _ H). cbn [snd] in *. destruct p as [lo hi|lo hi|cs]; unfold dim_of; cbn [encode_param d_lo d_hi d_int] in *.
  - destruct W as (W1 & W2 & W3). split; auto.
  - split; [auto|discriminate].
  - destruct cs as [|c cs]; [congruence|]. split.
    + cbn [length]. rewrite Nat2Z.inj_succ. unfold Z.succ. rewrite inject_Z_plus. assert (0 <= inject_Z (Z.of_nat (length cs)))%Q by (rewrite <- (Zle_Qle 0); lia).
      change (inject_Z 1) with 1%Q. lra.
    + intros _. split; [exists 0%Z; reflexivity|]. exists (Z.of_nat (length (c :: cs)) - 1)%Z. rewrite <- (inject_Z_opp 1) || idtac.
      unfold Z.sub. rewrite inject_Z_plus. reflexivity.
Qed.

Lemma feasible_valid b x : feasible (dims_of b) x -> valid (fst (encode_grid_to_discrete b)) (map VNum x).
Proof.
  unfold feasible, valid, dims_of. cbn [encode_grid_to_discrete fst]. revert x.
  induction b as [|(k & p) b IH]; intros x F; inversion F; subst; cbn [map]; constructor; auto.
  cbn [fst snd]. destruct H1 as (A & B & C). unfold dim_of in *. destruct p as [lo hi|lo hi|cs]; cbn [encode_param d_lo d_hi d_int valid_coord] in *.
  - exists y. auto.
  - exists y. auto.
  - exists y. auto.
Qed.

Lemma code_ok b x : dict b -> feasible (dims_of b) x -> exists c, code b x = Some c /\ valid b c /\ case_of b x c.
Proof.
  intros D F. destruct (decode_encode b (map VNum x) D (feasible_valid b x F)) as (c & E & V & A & _). exists c. split; [exact E|]. split; [exact V|].
  assert (Lx : length x = length b) by (apply Forall2_length in F; unfold dims_of in F; rewrite map_length in F; auto).
  assert (Lc : length c = length b) by (apply Forall2_length in V; auto).
  repeat split; auto. intros j k p q v Hb Hx Hc.
  destruct (A j k p (VNum q) Hb) as (v' & H1 & H2 & H3); [rewrite nth_error_map, Hx; reflexivity|].
  rewrite Hc in H1. injection H1 as <-. destruct p as [lo hi|lo hi|cs]; cbn [stands_for].
  - apply H2. intros; discriminate.
  - apply H2. intros; discriminate.
  - destruct (H3 cs eq_refl) as (n & S1 & S2). exists n. split; auto.
Qed.

Section Run.
Context (expf : Q -> Q) (tau tau' : nat -> Q) (m : mode) (fit : list Q -> Q) (p : es_par).
Let g := fun x => as_max m (fit x).

Lemma es_gen_best drs st st' : es_gen expf tau tau' m fit p drs st = Some st' ->
  exists os k v b, GenOffspring expf tau tau' p drs (es_pop st) = Some os /\ argmax (map m_fit (es_pop st')) = Some (k, v) /\ nth_error (es_pop st') k = Some b /\
    max_of g (map fst os) (m_ind b) v /\ es_scores st' = es_scores st ++ [v] /\ es_seen st' = es_seen st ++ map fst os /\ es_pop st' = select (map (evaluate m fit) os) (p_mu p).
Proof.
  unfold es_gen. intros H.
  destruct (GenOffspring _ _ _ _ _ _) as [os|] eqn:EG; [|discriminate].
  destruct (argmax _) as [[k v]|] eqn:EA; [|discriminate].
  destruct (nth_error _ k) as [b|] eqn:EB; [|discriminate]. inversion H; subst st'. clear H.
  exists os, k, v, b. cbn [es_pop es_scores es_seen]. split; [reflexivity|]. split; [exact EA|]. split; [exact EB|]. split; [|auto].
  exact (select_best m fit _ _ _ _ _ EA EB).
Qed.

(** Row by row: the individual of a generation, its value, and that generation's offspring. *)
Lemma et_bests_spec drs : wf_dims (p_dims p) -> (p_smin p < p_smax p)%Q -> (p_clip p = true \/ p_blend p = false) ->
  forall todo gi st st', es_gens expf tau tau' m fit p drs gi todo st = Some st' -> Forall (m_ok p) (es_pop st) ->
  let bs := et_bests expf tau tau' m fit p drs gi todo st in
  length bs = todo /\ exists vs gens, es_scores st' = es_scores st ++ vs /\ es_seen st' = es_seen st ++ concat gens /\ length vs = todo /\ length gens = todo /\
  Forall (fun l => length l = p_lambda p) gens /\
  forall i x, nth_error bs i = Some x -> exists v l, nth_error vs i = Some v /\ nth_error gens i = Some l /\ max_of g l x v.
Proof.
  intros W Hs C. induction todo as [|t IH]; intros gi st st' H F; cbn [es_gens et_bests] in *.
  - inversion H; subst. split; [reflexivity|]. exists [], []. rewrite !app_nil_r. repeat split; auto. intros i x E. destruct i; discriminate.
  - destruct (es_gen expf tau tau' m fit p (drs gi) st) as [st1|] eqn:E; [|discriminate].
    destruct (es_gen_best _ _ _ E) as (os & k & v & b & EG & EA & EB & M & S1 & S2 & S3).
    rewrite EA, EB. destruct (offspring_ok _ _ _ _ _ _ _ W Hs C F EG) as [L G].
    assert (F1 : Forall (m_ok p) (es_pop st1)).
    { rewrite S3. apply select_Forall. rewrite Forall_forall in *. intros x Hx. apply in_map_iff in Hx.
      destruct Hx as (o & <- & Ho). destruct (G o Ho) as (G1 & G2 & G3). split; auto. }
    destruct (IH _ _ _ H F1) as (L1 & vs & gens & A1 & A2 & A3 & A4 & A5 & A6).
    split; [cbn [length]; auto|]. exists (v :: vs), (map fst os :: gens). rewrite A1, A2, S1, S2, <- !app_assoc. cbn [app concat length].
    repeat split; auto.
    + constructor; auto. rewrite map_length. auto.
    + intros [|i] x Ex; cbn [nth_error] in *; [injection Ex as <-; eauto|eauto].
Qed.
End Run.

Lemma nth_ext_eq {A} : forall l r : list A, (forall j, nth_error l j = nth_error r j) -> l = r.
Proof.
  induction l as [|a l IH]; intros [|b r] H; auto; try (specialize (H 0); discriminate H).
  pose proof (H 0) as H0. injection H0 as <-. f_equal. apply IH. intros j. exact (H (S j)).
Qed.
Lemma skipn_concat {A} n (ls : list (list A)) : Forall (fun l => length l = n) ls -> forall i l, nth_error ls i = Some l -> firstn n (skipn (n * i) (concat ls)) = l.
Proof.
  induction 1 as [|a ls Ha H IH]; intros i l E; [destruct i; discriminate|]. destruct i as [|i]; cbn [nth_error concat] in *.
  - injection E as <-. rewrite Nat.mul_0_r. cbn [skipn]. rewrite <- Ha, firstn_app, Nat.sub_diag, firstn_all, firstn_O, app_nil_r. reflexivity.
  - rewrite skipn_app, Ha. replace (n * S i - n) with (n * i) by lia. rewrite (skipn_all2 a) by (rewrite Ha; lia). cbn [app]. auto.
Qed.

Section ET.
Context (expf : Q -> Q) (tau tau' : nat -> Q) (b : space) (m : mode) (fit : list val -> Q) (drs : nat -> nat -> odraw) (init : list (list Q * list Q)) (ngen : nat).
Notation run := (estune expf tau tau' b m fit drs init ngen).

Lemma et_start_ok : start_ok b init -> Forall (m_ok (et_par b)) (es_pop (es_start m (et_fit b fit) init)).
Proof.
  intros [_ G]. cbn [es_start es_pop]. rewrite Forall_forall in *. intros z Hz. apply in_map_iff in Hz. destruct Hz as (o & <- & Ho).
  destruct (G o Ho) as (G1 & G2 & G3). split; auto.
Qed.

Lemma et_rows_spec r : dict b -> wf_space b -> start_ok b init -> run = Some r ->
  length (et_rows r) = ngen /\ length (et_scores r) = ngen /\ length (et_seen r) = 10 * ngen /\ length (et_init r) = 10 /\
  forall g x s, nth_error (et_rows r) g = Some x -> nth_error (et_scores r) g = Some s ->
  In x (generation r g) /\ (exists c, case_of b x c /\ valid b c /\ (s == fit c)%Q) /\
  forall z, In z (generation r g) -> exists c, case_of b z c /\ valid b c /\ as_good m s (fit c).
Proof.
  intros D W SO H. unfold estune in H. destruct (evolute _ _ _ _ _ _ _ _ _) as [r0|] eqn:E; [|discriminate]. injection H as <-. cbn [et_rows et_scores et_seen et_init].
  assert (WD : wf_dims (p_dims (et_par b))) by exact (wf_dims_of b W). assert (Hs : (p_smin (et_par b) < p_smax (et_par b))%Q) by reflexivity.
  assert (C : p_clip (et_par b) = true \/ p_blend (et_par b) = false) by (left; reflexivity).
  destruct (evolute_feasible _ _ _ _ _ _ _ _ _ _ WD Hs C (proj2 SO) E) as (FE & _ & LS).
  pose proof (evolute_best _ _ _ _ _ _ _ _ _ _ E) as (_ & LL & _).
  unfold evolute in E. destruct (es_gens _ _ _ _ _ _ _ _ _ _) as [st|] eqn:EG; [|discriminate].
  destruct (es_best st) as [[bx by_]|]; [|discriminate]. injection E as <-. cbn [r_local r_init r_seen] in *.
  destruct (et_bests_spec _ _ _ _ _ _ drs WD Hs C ngen 0 _ _ EG (et_start_ok SO)) as (L1 & vs & gens & A1 & A2 & A3 & A4 & A5 & A6).
  cbn [es_start es_scores es_seen app] in A1, A2.
  split; [exact L1|]. split; [exact LL|]. split; [cbn [p_lambda et_par] in LS; lia|]. split; [rewrite map_length; apply SO|].
  intros g x s Hx Hsc. destruct (A6 g x Hx) as (v & l & V1 & V2 & M1 & M2 & M3).
  rewrite nth_error_map, A1, V1 in Hsc. cbn [option_map] in Hsc. injection Hsc as <-.
  assert (GE : firstn 10 (skipn (10 * g) (es_seen st)) = l) by (rewrite A2; apply (skipn_concat 10 gens A5); exact V2).
  assert (FL : forall z, In z l -> feasible (dims_of b) z).
  { intros z Hz. rewrite Forall_forall in FE. apply FE. rewrite A2. apply in_concat. exists l. split; auto. eapply nth_error_In; eauto. }
  unfold generation. cbn [et_seen]. rewrite GE. split; [exact M1|]. split.
  - destruct (code_ok b x D (FL x M1)) as (c & E1 & E2 & E3). exists c. repeat split; auto; try apply E3.
    unfold et_fit in M2. rewrite E1 in M2. rewrite M2. rewrite as_max_invol. reflexivity.
  - intros z Hz. destruct (code_ok b z D (FL z Hz)) as (c & E1 & E2 & E3). exists c. split; auto. split; auto.
    pose proof (M3 z Hz) as B. unfold et_fit in B. rewrite E1 in B. apply as_max_good. rewrite as_max_invol. exact B.
Qed.

Lemma case_plain x c : no_grid b -> case_of b x c -> c = map VNum x.
Proof.
  intros N (L1 & L2 & A). apply nth_ext_eq. intros j. rewrite nth_error_map.
  destruct (nth_error x j) as [q|] eqn:Ex.
  - assert (Hj : j < length b) by (rewrite <- L1; apply nth_error_Some; congruence).
    destruct (nth_error b j) as [[k p]|] eqn:Eb; [|apply nth_error_None in Eb; lia].
    destruct (nth_error c j) as [v|] eqn:Ec; [|apply nth_error_None in Ec; lia].
    cbn [option_map]. f_equal. specialize (A j k p q v Eb Ex Ec). destruct p as [lo hi|lo hi|cs]; cbn [stands_for] in A; auto.
    exfalso. apply (N k cs). eapply nth_error_In; eauto.
  - cbn [option_map]. apply nth_error_None. apply nth_error_None in Ex. lia.
Qed.

Lemma et_table_spec r : dict b -> ~ In "score"%string (map fst b) -> wf_space b -> start_ok b init -> run = Some r ->
  map fst (et_table b r) = map fst b ++ ["score"%string] /\ dget (et_table b r) "score" = Some (map CScore (et_scores r)) /\
  forall j k p, nth_error b j = Some (k, p) -> exists col, dget (et_table b r) k = Some col /\ length col = ngen /\
    forall g x q, nth_error (et_rows r) g = Some x -> nth_error x j = Some q -> nth_error col g = Some (CVal (VNum q)).
Proof.
  intros D NS W SO H. destruct (et_rows_spec r D W SO H) as (L1 & _). unfold et_table.
  destruct (frame_ok (map fst b) (map (map VNum) (et_rows r)) (map CScore (et_scores r)) D NS) as (A & B & C).
  split; auto. split; auto. intros j k p Hj. destruct (C j k) as (col & C1 & C2 & C3); [rewrite nth_error_map, Hj; reflexivity|].
  exists col. split; auto. split; [rewrite C2, map_length; auto|]. intros g x q Hx Hq. apply (C3 g (map VNum x)); [rewrite nth_error_map, Hx; reflexivity|rewrite nth_error_map, Hq; reflexivity].
Qed.

(** Without grids the table shows the cases themselves. *)
Lemma et_plain r : dict b -> no_grid b -> wf_space b -> start_ok b init -> run = Some r ->
  forall g x s, nth_error (et_rows r) g = Some x -> nth_error (et_scores r) g = Some s -> valid b (map VNum x) /\ (s == fit (map VNum x))%Q.
Proof.
  intros D N W SO H g x s Hx Hs. destruct (et_rows_spec r D W SO H) as (_ & _ & _ & _ & A).
  destruct (A g x s Hx Hs) as (_ & (c & C1 & C2 & C3) & _). rewrite <- (case_plain x c N C1). auto.
Qed.

(** In the column of a grid of strings no entry is one of them. *)
Lemma et_grid r : dict b -> ~ In "score"%string (map fst b) -> wf_space b -> start_ok b init -> run = Some r ->
  forall j k cs, nth_error b j = Some (k, PGrid cs) -> (forall c, In c cs -> exists t, c = VStr t) ->
  exists col, dget (et_table b r) k = Some col /\ length col = ngen /\ forall c, In c cs -> ~ In (CVal c) col.
Proof.
  intros D NS W SO H j k cs Hj HS. destruct (et_table_spec r D NS W SO H) as (_ & _ & A). destruct (A j k _ Hj) as (col & C1 & C2 & C3).
  exists col. split; auto. split; auto. intros c Hc HI. destruct (HS c Hc) as (t & ->).
  apply In_nth_error in HI. destruct HI as (g & Hg). destruct (et_rows_spec r D W SO H) as (L1 & L2 & _ & _ & B).
  assert (Lg : g < ngen) by (rewrite <- C2; apply nth_error_Some; congruence).
  destruct (nth_error (et_rows r) g) as [x|] eqn:Ex; [|apply nth_error_None in Ex; lia].
  destruct (nth_error (et_scores r) g) as [s|] eqn:Es; [|apply nth_error_None in Es; lia].
  destruct (B g x s Ex Es) as (_ & (c & (Lx & _) & _) & _).
  destruct (nth_error x j) as [q|] eqn:Eq.
  - rewrite (C3 g x q Ex Eq) in Hg. discriminate.
  - apply nth_error_None in Eq. assert (j < length b) by (apply nth_error_Some; congruence). lia.
Qed.

Lemma et_total : (forall q, 0 < expf q)%Q -> wf_space b -> 2 <= length b -> start_ok b init -> 1 <= ngen -> exists r, run = Some r.
Proof.
  intros He W L SO N. unfold estune.
  destruct (evolute_total expf tau tau' m (et_fit b fit) (et_par b) drs init ngen He (wf_dims_of b W)) as (r & ->); cbn [et_par p_smin p_smax p_clip p_blend p_dims p_mu p_lambda]; eauto; try reflexivity; try lia.
  - discriminate.
  - right. unfold dims_of. rewrite map_length. auto.
  - apply SO.
  - apply SO.
Qed.

End ET.

(** * One hyperparameter *)
Section One.
Context (expf : Q -> Q) (tau tau' : nat -> Q) (p : es_par).
Hypothesis P0 : wf_dims (p_dims p).
Hypothesis P1 : length (p_dims p) < 2.
Hypothesis P2 : p_blend p = false.
Hypothesis P3 : (p_smin p < p_smax p)%Q.

Lemma gen_one_cross dr pop : Forall (m_ok p) pop -> (od_rn dr < p_cxpb p)%Q -> gen_one expf tau tau' p dr pop = None.
Proof.
  intros F H. unfold gen_one. apply Qltb_lt in H. rewrite H, P2. destruct (length pop <? 2); [reflexivity|]. cbv zeta.
  destruct (nth_error pop (od_i dr mod length pop)) as [m1|] eqn:E1; [|reflexivity].
  destruct (nth_error pop (if _ <? _ then _ else _)) as [m2|]; [|reflexivity].
  pose proof (proj1 (Forall_forall _ _) F m1 (nth_error_In _ _ E1)) as (G1 & _). cbn [fst] in G1.
  rewrite two_point_short; [reflexivity|]. rewrite (feasible_length _ _ G1). exact P1.
Qed.
Lemma gen_loop_cross drs : forall todo k pop, Forall (m_ok p) pop -> (exists i, k <= i < k + todo /\ (od_rn (drs i) < p_cxpb p)%Q) ->
  gen_loop expf tau tau' p drs k todo pop = None.
Proof.
  induction todo as [|t IH]; intros k pop F (i & Hi & H); [lia|]. cbn [gen_loop].
  destruct (gen_one expf tau tau' p (drs k) pop) as [[pop' [x s]]|] eqn:E; [|reflexivity].
  destruct (Nat.eq_dec i k) as [->|N]; [rewrite (gen_one_cross _ _ F H) in E; discriminate|].
  apply gen_one_ok in E; auto. rewrite IH; auto; [apply E|]. exists i. split; [lia|auto].
Qed.
End One.

Lemma et_one expf tau tau' b m fit drs init ngen : wf_space b -> length b < 2 -> start_ok b init ->
  (exists g i, g < ngen /\ i < 10 /\ (od_rn (drs g i) < 7 # 10)%Q) -> estune expf tau tau' b m fit drs init ngen = None.
Proof.
  intros W L SO (g & i & Hg & Hi & H). unfold estune, evolute.
  assert (K : forall todo gi st, gi <= g < gi + todo -> Forall (m_ok (et_par b)) (es_pop st) -> es_gens expf tau tau' m (et_fit b fit) (et_par b) drs gi todo st = None).
  { induction todo as [|t IH]; intros gi st Hr F; [lia|]. cbn [es_gens].
    destruct (es_gen _ _ _ _ _ _ _ _) as [st1|] eqn:E; [|reflexivity].
    destruct (es_gen_best _ _ _ _ _ _ _ _ _ E) as (os & k & v & b1 & EG & _ & _ & _ & _ & _ & S3).
    assert (L1 : length (p_dims (et_par b)) < 2) by (cbn [et_par p_dims]; unfold dims_of; rewrite map_length; auto).
    assert (Hs : (p_smin (et_par b) < p_smax (et_par b))%Q) by reflexivity.
    destruct (Nat.eq_dec gi g) as [->|N].
    - exfalso. unfold GenOffspring in EG. rewrite (gen_loop_cross expf tau tau' (et_par b) (wf_dims_of b W) L1 eq_refl Hs) in EG; auto; [discriminate|].
      exists i. split; auto. cbn [et_par p_lambda]. lia.
    - apply IH; [lia|]. destruct (offspring_ok _ _ _ (et_par b) _ _ _ (wf_dims_of b W) Hs (or_introl eq_refl) F EG) as [L2 G].
      rewrite S3. apply select_Forall. rewrite Forall_forall in *. intros x Hx. apply in_map_iff in Hx.
      destruct Hx as (o & <- & Ho). destruct (G o Ho) as (G1 & G2 & G3). split; auto. }
  rewrite K; auto. - lia. - apply et_start_ok. exact SO.
Qed.
