(** Proofs about evolution strategies in RL-informed mode. *)
From Coq Require Import String List Arith ZArith QArith Bool Permutation Sorting Lia Lqa.
From Verif Require Import Base BaseFacts Space_Model Space_Spec Space_Facts Opt_Model Opt_Spec Opt_Facts Opt_Facts2 ES_Model ES_Spec ES_Proofs DE_Model RLI_Model RLI_Spec RLI_Learn RLI_DE.
Import ListNotations.
Open Scope nat_scope.

Lemma es_put_len rows : forall i pop pop', es_put i rows pop = Some pop' ->
  length pop' = length pop /\ (rows <> [] -> i + length rows <= length pop).
Proof.
  induction rows as [|x rows IH]; intros i pop pop' H; cbn [es_put] in H.
  - inversion H; subst. split; auto. congruence.
  - destruct (Nat.leb_spec (length pop) i); [discriminate|]. apply bind_Some in H. destruct H as (b & Hb & H).
    apply IH in H. rewrite set_nth_len in H. destruct H as [H1 H2]. split; auto. intros _. cbn [length].
    destruct rows; [cbn [length]; lia|]. specialize (H2 ltac:(discriminate)). cbn [length] in *. lia.
Qed.

Lemma es_put_spec rows : forall i pop pop', es_put i rows pop = Some pop' ->
  map m_fit pop' = map m_fit pop /\ map m_strat pop' = map m_strat pop /\
  (forall k, (forall j, j < length rows -> k <> length pop - 1 - (i + j)) -> nth_error pop' k = nth_error pop k) /\
  (forall j x, nth_error rows j = Some x -> exists b, nth_error pop (length pop - 1 - (i + j)) = Some b /\
     nth_error pop' (length pop - 1 - (i + j)) = Some (Mem x (m_strat b) (m_fit b))).
Proof.
  induction rows as [|x rows IH]; intros i pop pop' H; pose proof (es_put_len _ _ _ _ H) as [PL PB]; cbn [es_put] in H.
  - inversion H; subst. do 3 (split; [auto|]). intros [|j] x; discriminate.
  - specialize (PB ltac:(discriminate)). cbn [length] in PB.
    destruct (Nat.leb_spec (length pop) i); [discriminate|]. apply bind_Some in H. destruct H as (b & Hb & H).
    set (k0 := length pop - 1 - i) in *.
    assert (MAP : forall {A} (f : member -> A), f (Mem x (m_strat b) (m_fit b)) = f b -> map f (set_nth pop k0 (Mem x (m_strat b) (m_fit b))) = map f pop).
    { intros A f E. clearbody k0. clear - Hb E. revert k0 Hb. induction pop as [|c pop IH]; intros [|k0] Hb; simpl in *; try discriminate.
      - inversion Hb; subst. congruence.
      - f_equal. auto. }
    apply IH in H. rewrite set_nth_len in H. destruct H as (F & ST & O & N). split; [rewrite F; apply MAP; reflexivity|].
    split; [rewrite ST; apply MAP; reflexivity|]. split.
    + intros k Hk. rewrite O.
      * rewrite set_nth_get. destruct (Nat.eqb_spec k0 k); auto. exfalso. apply (Hk 0); [cbn [length]; lia|]. unfold k0 in *. lia.
      * intros j Hj. specialize (Hk (S j)). cbn [length] in Hk. specialize (Hk ltac:(lia)). lia.
    + intros [|j] y Hy; cbn [nth_error] in Hy.
      * inversion Hy; subst y. rewrite Nat.add_0_r. fold k0. exists b. split; auto. rewrite O.
        -- rewrite set_nth_get, Nat.eqb_refl. destruct (Nat.ltb_spec k0 (length pop)); [reflexivity|unfold k0 in *; lia].
        -- intros j Hj. unfold k0. lia.
      * destruct (N _ _ Hy) as (c & Hc & Hc'). replace (i + S j) with (S i + j) by lia. exists c. split; auto.
        rewrite set_nth_get in Hc. destruct (Nat.eqb_spec k0 (length pop - 1 - (S i + j))); auto.
        exfalso. assert (j < length rows) by (apply nth_error_Some; congruence). unfold k0 in *. lia.
Qed.

Lemma es_put_total rows : forall i pop, i + length rows <= length pop -> exists pop', es_put i rows pop = Some pop'.
Proof.
  induction rows as [|x rows IH]; intros i pop H; cbn [es_put]; eauto. cbn [length] in H.
  destruct (Nat.leb_spec (length pop) i); [lia|].
  destruct (nth_error pop (length pop - 1 - i)) as [b|] eqn:E; [|apply nth_error_None in E; lia]. cbn [bind].
  apply IH. rewrite set_nth_len. lia.
Qed.

Section ES.
Context (expf : Q -> Q) (tau tau' : nat -> Q) (m : mode) (fit : list Q -> Q) (p : es_par) (data : list (list Q)) (n : nat).

(** What mixing does: the last n members get n distinct rows, keep strategy and fitness. *)
Lemma es_mix_spec draw pop pop' : es_mix data n draw pop = Some pop' ->
  n <= length pop /\ length pop' = length pop /\ map m_fit pop' = map m_fit pop /\ map m_strat pop' = map m_strat pop /\
  (forall k, k < length pop - n -> nth_error pop' k = nth_error pop k) /\
  exists rows, NoDup rows /\ length rows = n /\
    forall j r, nth_error rows j = Some r -> exists x b, nth_error data r = Some x /\ nth_error pop' (length pop - 1 - j) = Some b /\ m_ind b = x.
Proof.
  unfold es_mix. intros H. apply bind_Some in H. destruct H as (rows & Hr & H).
  destruct pop as [|a pop]; [discriminate|]. set (l := a :: pop) in *.
  destruct (rows_spec _ _ _ _ Hr) as (RL & ix & IN & IL & IR).
  pose proof (es_put_len _ _ _ _ H) as [L B]. destruct (es_put_spec _ _ _ _ H) as (F & ST & O & N). rewrite RL in *.
  assert (NL : n <= length l). { destruct rows; [simpl in RL; lia|]. specialize (B ltac:(discriminate)). lia. }
  split; auto. split; auto. split; auto. split; auto. split.
  - intros k Hk. apply O. intros j Hj. lia.
  - exists ix. split; auto. split; auto. intros j r Hj.
    destruct (nth_error rows j) as [x|] eqn:Ex.
    + destruct (N _ _ Ex) as (b & _ & Hb). cbn [Nat.add] in Hb. exists x, (Mem x (m_strat b) (m_fit b)). split; auto.
      clear - IR Hj Ex. revert j Hj Ex. induction IR; intros [|j] H1 H2; simpl in *; try discriminate; [congruence|eauto].
    + apply nth_error_None in Ex. assert (j < length ix) by (apply nth_error_Some; congruence). lia.
Qed.

Lemma es_mix_Forall draw pop pop' (P : list Q -> list Q -> Prop) : es_mix data n draw pop = Some pop' ->
  Forall (fun b => P (m_ind b) (m_strat b)) pop -> (forall x b, In x data -> In b pop -> P x (m_strat b)) ->
  Forall (fun b => P (m_ind b) (m_strat b)) pop'.
Proof.
  intros H F D. unfold es_mix in H. apply bind_Some in H. destruct H as (rows & Hr & H).
  destruct (rows_spec _ _ _ _ Hr) as (RL & ix & IN & IL & IR).
  assert (RD : forall x, In x rows -> In x data).
  { clear - IR. induction IR; intros z Hz; [destruct Hz|destruct Hz as [<-|Hz]; auto; eapply nth_error_In; eauto]. }
  destruct (es_put_spec _ _ _ _ ltac:(destruct pop; [discriminate|exact H])) as (EF & ES & EO & EN).
  pose proof (es_put_len _ _ _ _ ltac:(destruct pop; [discriminate|exact H])) as [PL PB].
  apply Forall_forall. intros b Hb. apply In_nth_error in Hb. destruct Hb as [k Hk].
  destruct (Nat.lt_ge_cases k (length pop - length rows)) as [L|L].
  - rewrite EO in Hk by lia. rewrite Forall_forall in F. apply F. eapply nth_error_In; eauto.
  - assert (k < length pop). { rewrite <- PL. apply nth_error_Some. congruence. }
    destruct (nth_error rows (length pop - 1 - k)) as [x|] eqn:Ex.
    + destruct (EN _ _ Ex) as (c & Hc & Hc'). replace (length pop - 1 - (0 + (length pop - 1 - k))) with k in * by lia.
      rewrite Hk in Hc'. inversion Hc'; subst b. cbn [m_ind m_strat]. apply D; [apply RD; eapply nth_error_In; eauto|eapply nth_error_In; eauto].
    + apply nth_error_None in Ex. lia.
Qed.

(** While fewer members than mu are replaced, only the population of the next generation differs. *)
Lemma res_gen_es drs draw st st' : n < p_mu p -> p_mu p <= p_lambda p ->
  res_gen expf tau tau' m fit p data n drs draw st = Some st' ->
  exists st1, es_gen expf tau tau' m fit p drs st = Some st1 /\ es_best st' = es_best st1 /\
    es_scores st' = es_scores st1 /\ es_seen st' = es_seen st1 /\ es_mix data n draw (es_pop st1) = Some (es_pop st').
Proof.
  intros L ML H. unfold res_gen in H. apply bind_Some in H. destruct H as (os & EG & H).
  apply bind_Some in H. destruct H as (pop' & EM & H). apply bind_Some in H. destruct H as ([k v] & EA & H).
  apply bind_Some in H. destruct H as (b & EB & H). inversion H; subst st'. clear H.
  unfold es_gen. rewrite EG. set (sel := select (map (evaluate m fit) os) (p_mu p)) in *.
  destruct (es_mix_spec _ _ _ EM) as (ML1 & ML2 & MF & _ & MK & _). rewrite MF in EA. rewrite EA.
  assert (OL : length os = p_lambda p).
  { unfold GenOffspring in EG. destruct (gen_loop _ _ _ _ _ _ _ _) as [l|] eqn:EL; [|discriminate].
    assert (GL : forall todo k pop l, gen_loop expf tau tau' p drs k todo pop = Some l -> length l = todo).
    { clear. induction todo as [|t IH]; intros k pop l H; cbn [gen_loop] in H; [inversion H; auto|].
      destruct (gen_one _ _ _ _ _ _) as [[pop' o]|]; [|discriminate].
      destruct (gen_loop _ _ _ _ _ _ _ _) eqn:E; [|discriminate]. inversion H; subst. simpl. f_equal. eauto. }
    apply GL in EL. inversion EG; subst os. destruct (p_clip p); [rewrite map_length|]; auto. }
  assert (SL : length sel = p_mu p) by (unfold sel; rewrite select_length, map_length; lia).
  assert (K0 : k = 0).
  { destruct k as [|k]; auto. exfalso. apply argmax_spec in EA. destruct EA as (A1 & A2 & A3).
    destruct sel as [|c sel'] eqn:Es; [simpl in SL; lia|].
    assert (Hs : (m_fit c < v)%Q) by (apply (A3 0); [lia|reflexivity]).
    rewrite nth_error_map in A1. destruct (nth_error (c :: sel') (S k)) as [d|] eqn:Ed; [|discriminate]. inversion A1; subst v.
    assert (SS : StronglySorted (fun a b => (m_fit b <= m_fit a)%Q) (sort_desc m_fit (map (evaluate m fit) os))) by apply sort_desc_sorted.
    unfold sel, select in Es. rewrite <- (firstn_skipn (p_mu p) (sort_desc m_fit (map (evaluate m fit) os))), Es in SS.
    cbn [app] in SS. inversion SS as [|? ? _ FF]; subst. rewrite Forall_forall in FF.
    cbn [nth_error] in Ed. specialize (FF d ltac:(apply in_app_iff; left; eapply nth_error_In; eauto)). lra. }
  subst k. rewrite MK in EB by lia. rewrite EB. eexists. split; [reflexivity|]. cbn [es_best es_scores es_seen es_pop]. auto.
Qed.

Lemma res_gens_inv drs draw todo : n < p_mu p -> p_mu p <= p_lambda p -> forall gi st st',
  res_gens expf tau tau' m fit p data n drs draw gi todo st = Some st' -> es_inv m fit st ->
  es_inv m fit st' /\ length (es_scores st') = todo + length (es_scores st) /\ (todo <> 0 -> es_best st' <> None).
Proof.
  intros L ML. induction todo as [|t IH]; intros gi st st' H I; cbn [res_gens] in H.
  - inversion H; subst. repeat split; auto; lia.
  - apply bind_Some in H. destruct H as (st1 & E & H). apply res_gen_es in E; auto. destruct E as (s0 & E0 & E1 & E2 & E3 & _).
    apply es_gen_inv in E0; auto. destruct E0 as (F1 & F2 & F3).
    assert (I1 : es_inv m fit st1) by (unfold es_inv in *; rewrite E1, E2, E3; auto).
    destruct (IH _ _ _ H I1) as (J1 & J2 & J3). rewrite E2 in J2. repeat split; auto; [lia|].
    intros _. destruct t; [|apply J3; lia]. cbn [res_gens] in H. inversion H; subst. congruence.
Qed.

Lemma res_best drs draw init ngen r : n < p_mu p -> p_mu p <= p_lambda p ->
  res_evolute expf tau tau' m fit p data n drs draw init ngen = Some r ->
  best_of m fit (r_seen r) (r_x r) (r_y r) /\
  length (r_local r) = ngen /\ length (r_global r) = ngen /\
  never_worse m (r_global r) /\
  (forall i v, nth_error (r_global r) i = Some v ->
     (forall x, In x (firstn (S i) (r_local r)) -> as_good m v x) /\ In v (firstn (S i) (r_local r))) /\
  (forall v, nth_error (r_global r) (ngen - 1) = Some v -> (v == r_y r)%Q).
Proof.
  intros NL ML H. unfold res_evolute in H. apply bind_Some in H. destruct H as (st & E & H).
  apply res_gens_inv in E; auto; [|split; reflexivity]. destruct E as (I & L & _). unfold es_inv in I.
  apply bind_Some in H. destruct H as ([x y] & EB & H). rewrite EB in I. destruct I as (I1 & I2 & I3 & I4).
  inversion H; subst r. clear H. cbn [r_seen r_x r_y r_local r_global es_scores es_start length] in *.
  rewrite Nat.add_0_r in L.
  split; [apply max_of_best; auto|]. split; [rewrite map_length; auto|].
  split; [rewrite accumulate_length, map_length; auto|].
  change (match m with Mmin => qmin2 | Mmax => qmax2 end) with (acc_op m).
  split; [apply accumulate_never_worse|]. split; [intros i v; apply accumulate_spec|].
  intros v Hv. apply accumulate_spec in Hv. destruct Hv as [V1 V2].
  assert (N : ngen <> 0) by (rewrite <- L; destruct (es_scores st); simpl; [congruence|lia]).
  replace (S (ngen - 1)) with (length (map (as_max m) (es_scores st))) in V1, V2 by (rewrite map_length; lia).
  rewrite firstn_all in V1, V2. apply in_map_iff in V2. destruct V2 as (s & <- & Hs).
  destruct I4 as (s' & Hs' & Es'). pose proof (I3 s Hs) as B1.
  assert (B2 : as_good m (as_max m s) (as_max m s')) by (apply V1; apply in_map; auto).
  apply as_max_good in B2. rewrite !as_max_invol in B2. assert (B3 : (s == y)%Q) by lra. rewrite B3. reflexivity.
Qed.

Lemma res_gens_feasible drs draw : wf_dims (p_dims p) -> (p_smin p < p_smax p)%Q ->
  (p_clip p = true \/ p_blend p = false) -> Forall (feasible (p_dims p)) data -> forall todo gi st st',
  res_gens expf tau tau' m fit p data n drs draw gi todo st = Some st' ->
  Forall (m_ok p) (es_pop st) -> Forall (feasible (p_dims p)) (es_seen st) ->
  Forall (m_ok p) (es_pop st') /\ Forall (feasible (p_dims p)) (es_seen st') /\
  length (es_seen st') = todo * p_lambda p + length (es_seen st).
Proof.
  intros W Hs C DF. induction todo as [|t IH]; intros gi st st' H F HS; cbn [res_gens] in H.
  - inversion H; subst. auto.
  - apply bind_Some in H. destruct H as (st1 & E & H). unfold res_gen in E.
    apply bind_Some in E. destruct E as (os & EG & E). apply bind_Some in E. destruct E as (pop' & EM & E).
    apply bind_Some in E. destruct E as ([k v] & _ & E). apply bind_Some in E. destruct E as (b & _ & E). inversion E; subst st1. clear E.
    destruct (offspring_ok _ _ _ _ _ _ _ W Hs C F EG) as [L G].
    apply IH in H; cbn [es_pop es_seen] in *.
    + destruct H as (H1 & H2 & H3). repeat split; auto. rewrite H3, app_length, map_length, L. lia.
    + assert (S0 : Forall (m_ok p) (select (map (evaluate m fit) os) (p_mu p))).
      { apply select_Forall. rewrite Forall_forall in *. intros x Hx. apply in_map_iff in Hx.
        destruct Hx as (o & <- & Ho). destruct (G o Ho) as (G1 & G2 & G3). split; auto. }
      apply (es_mix_Forall _ _ _ (fun i s => good_pair p (i, s)) EM).
      * exact S0.
      * intros x c Hx Hc. rewrite Forall_forall in S0, DF. destruct (S0 c Hc) as (G1 & G2 & G3). split; [apply DF; auto|]. split; auto.
    + apply Forall_app. split; auto. rewrite Forall_forall in *. intros x Hx. apply in_map_iff in Hx.
      destruct Hx as (o & <- & Ho). apply G; auto.
Qed.

Lemma res_feasible drs draw init ngen r : wf_dims (p_dims p) -> (p_smin p < p_smax p)%Q ->
  (p_clip p = true \/ p_blend p = false) -> Forall (feasible (p_dims p)) data -> Forall (good_pair p) init ->
  res_evolute expf tau tau' m fit p data n drs draw init ngen = Some r ->
  Forall (feasible (p_dims p)) (r_seen r) /\ length (r_seen r) = ngen * p_lambda p.
Proof.
  intros W Hs C DF G H. unfold res_evolute in H. apply bind_Some in H. destruct H as (st & E & H).
  apply (res_gens_feasible _ _ W Hs C DF) in E.
  - destruct E as (E1 & E2 & E3). apply bind_Some in H. destruct H as ([x y] & EB & H). inversion H; subst r.
    cbn [r_seen] in *. split; auto. simpl in E3. lia.
  - simpl. rewrite Forall_forall in *. intros z Hz. apply in_map_iff in Hz. destruct Hz as (o & <- & Ho).
    destruct (G o Ho) as (G1 & G2 & G3). split; auto.
  - constructor.
Qed.

Lemma es_mix_total draw pop : 1 <= length pop -> n <= length pop -> n <= length data -> exists pop', es_mix data n draw pop = Some pop'.
Proof.
  intros L1 L2 L3. unfold es_mix. destruct (rows_total data n draw L3) as (rows & Hr). rewrite Hr. cbn [bind].
  destruct (rows_spec _ _ _ _ Hr) as (RL & _). destruct pop as [|a pop]; [simpl in L1; lia|]. apply es_put_total. lia.
Qed.

Lemma res_total drs draw init ngen : (forall q, 0 < expf q)%Q -> wf_dims (p_dims p) ->
  (0 < p_smin p)%Q -> (p_smin p < p_smax p)%Q -> (p_smax p <= 1)%Q ->
  (p_clip p = true \/ p_blend p = false) -> (p_blend p = true \/ 2 <= length (p_dims p)) ->
  2 <= p_mu p -> n < p_mu p -> n <= length data -> Forall (feasible (p_dims p)) data ->
  p_mu p <= p_lambda p -> length init = p_lambda p -> Forall (good_pair p) init -> 1 <= ngen ->
  exists r, res_evolute expf tau tau' m fit p data n drs draw init ngen = Some r.
Proof.
  intros He W H0 H1 H2 C Hd M1 NM ND DF M2 L G N. unfold res_evolute.
  assert (T : forall todo gi st, 2 <= length (es_pop st) -> Forall (m_ok p) (es_pop st) ->
    exists st', res_gens expf tau tau' m fit p data n drs draw gi todo st = Some st').
  { induction todo as [|t IH]; intros gi st Hn F; cbn [res_gens]; eauto. unfold res_gen.
    assert (exists os, GenOffspring expf tau tau' p (drs gi) (es_pop st) = Some os) as (os & EG).
    { unfold GenOffspring. destruct (gen_loop_total expf tau tau' p (drs gi) He W H0 H1 H2 Hd (p_lambda p) 0 (es_pop st) Hn F) as (os & ->). eauto. }
    rewrite EG. cbn [bind]. destruct (offspring_ok _ _ _ _ _ _ _ W H1 C F EG) as [OL OG].
    set (sel := select (map (evaluate m fit) os) (p_mu p)).
    assert (SL : length sel = p_mu p) by (unfold sel; rewrite select_length, map_length; lia).
    destruct (es_mix_total (draw gi) sel ltac:(lia) ltac:(lia) ND) as (pop' & EM). rewrite EM. cbn [bind].
    destruct (es_mix_spec _ _ _ EM) as (_ & ML2 & MF & _ & _ & _).
    destruct (argmax_Some (map m_fit pop')) as (k & v & EA).
    { intros E. apply map_eq_nil in E. rewrite E in ML2. simpl in ML2. lia. }
    rewrite EA. cbn [bind]. apply argmax_spec in EA. destruct EA as [EA _]. rewrite nth_error_map in EA.
    destruct (nth_error pop' k) as [b|]; [|discriminate]. cbn [bind].
    apply IH; cbn [es_pop]; [lia|]. 
    assert (S0 : Forall (m_ok p) sel).
    { apply select_Forall. rewrite Forall_forall in *. intros x Hx. apply in_map_iff in Hx.
      destruct Hx as (o & <- & Ho). destruct (OG o Ho) as (G1 & G2 & G3). split; auto. }
    apply (es_mix_Forall _ _ _ (fun i s => good_pair p (i, s)) EM); [exact S0|].
    intros x c Hx Hc. rewrite Forall_forall in S0, DF. destruct (S0 c Hc) as (G1 & G2 & G3). split; [apply DF; auto|]. split; auto. }
  destruct (T ngen 0 (es_start m fit init)) as (st & E).
  - simpl. rewrite map_length. lia.
  - simpl. rewrite Forall_forall in *. intros z Hz. apply in_map_iff in Hz. destruct Hz as (o & <- & Ho).
    destruct (G o Ho) as (G1 & G2 & G3). split; auto.
  - rewrite E. cbn [bind]. apply res_gens_inv in E; auto; [|split; reflexivity]. destruct E as (_ & _ & E).
    destruct (es_best st) as [[x y]|]; [cbn [bind]; eauto|]. exfalso. apply E; [lia|reflexivity].
Qed.

(** Too many RL individuals, or too few rows: the first generation raises. *)
Lemma res_raises drs draw init ngen : 1 <= ngen -> p_mu p < n \/ length data < n ->
  res_evolute expf tau tau' m fit p data n drs draw init ngen = None.
Proof.
  intros N L. unfold res_evolute. destruct ngen as [|t]; [lia|]. cbn [res_gens]. unfold res_gen.
  destruct (GenOffspring _ _ _ _ _ _) as [os|]; cbn [bind]; auto.
  destruct (es_mix data n (draw 0) _) as [pop'|] eqn:EM; cbn [bind]; auto. exfalso.
  destruct L as [L|L].
  - apply es_mix_spec in EM. destruct EM as (EM & _). rewrite select_length, map_length in EM. lia.
  - unfold es_mix in EM. rewrite rows_few in EM by auto. discriminate.
Qed.
End ES.
