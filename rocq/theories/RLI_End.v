(** The RL-informed optimizers after learn, for spaces without grid parameters. *)
From Coq Require Import String List Arith ZArith QArith Bool Permutation Sorting Lia Lqa.
From Verif Require Import Base BaseFacts Space_Model Space_Spec Space_Facts Space_Proofs Opt_Model Opt_Spec Opt_Facts Opt_Facts2 ES_Model ES_Spec ES_Proofs DE_Model DE_Proofs RLI_Model RLI_Spec RLI_Learn RLI_DE RLI_ES.
Import ListNotations.
Open Scope nat_scope.

Lemma encode_id b : has_grid b = false -> fst (encode_grid_to_discrete b) = b.
Proof.
  unfold encode_grid_to_discrete, has_grid. cbn [fst]. intros H. induction b as [|[k p] b IH]; auto.
  cbn [existsb snd] in H. apply orb_false_iff in H. destruct H as [H1 H2]. cbn [map fst snd]. rewrite IH by auto.
  destruct p; try discriminate; reflexivity.
Qed.

Lemma rows_valid b d : has_grid b = false -> Forall (valid b) d -> exists rows,
  traverse (fun _ x => nums x) 0 d = Some rows /\ length rows = length d /\ d = map (map VNum) rows /\ Forall (feasible (space_dims b)) rows.
Proof.
  intros G V. generalize 0. induction V as [|x d Vx V IH]; intros i; cbn [traverse].
  - exists []. auto.
  - destruct (nums_valid b x G Vx) as (v & E1 & E2 & E3). rewrite E1. cbn [bind].
    destruct (IH (S i)) as (rows & F1 & F2 & F3 & F4). rewrite F1. cbn [bind]. exists (v :: rows).
    split; auto. split; [simpl; auto|]. split; [simpl; congruence|]. constructor; auto.
Qed.

Lemma traverse_shift {A B} (g : A -> option B) l : forall i j, traverse (fun _ a => g a) i l = traverse (fun _ a => g a) j l.
Proof. induction l as [|a l IH]; intros i j; cbn [traverse]; auto. rewrite (IH (S i) (S j)). reflexivity. Qed.

(** The initial population of both optimizers. *)
Lemma start_pop b npop data x0draw gu gk (irl : bool) : has_grid b = false -> wf_dims (space_dims b) -> data <> [] -> Forall (valid b) data ->
  (forall i j, 0 <= gu i j <= 1)%Q ->
  exists init, (if irl then let* x0 := rl_x0 npop data x0draw in init_x0 b x0
                else Some (map (fun i => gen_indv (space_dims b) (gu i) (gk i)) (seq 0 npop))) = Some init /\
    length init = npop /\ Forall (feasible (space_dims b)) init /\
    (irl = true -> forall i v, i < npop -> choice data (x0draw i) = Some (map VNum v) -> In v init).
Proof.
  intros G W N V U. destruct irl.
  - unfold rl_x0.
    assert (forall ks i, exists x0 init, traverse (fun _ i => choice data (x0draw i)) i ks = Some x0 /\
      init_x0 b x0 = Some init /\ length init = length ks /\ Forall (feasible (space_dims b)) init /\
      forall k x, In k ks -> choice data (x0draw k) = Some x -> exists v, In v init /\ x = map VNum v) as T.
    { induction ks as [|k ks IH]; intros i; cbn [traverse].
      - exists [], []. repeat split; auto. intros k x [].
      - destruct (IH (S i)) as (x0 & init & E1 & E2 & E3 & E4 & E5).
        destruct (choice data (x0draw k)) as [x|] eqn:EC.
        2: { exfalso. unfold choice in EC. destruct data; [congruence|]. apply nth_error_None in EC. assert (x0draw k mod length (l :: data) < length (l :: data)) by (apply Nat.mod_upper_bound; simpl; lia). lia. }
        cbn [bind]. rewrite E1. cbn [bind].
        assert (Vx : valid b x). { rewrite Forall_forall in V. apply V. exact (choice_In data (x0draw k) x EC). }
        destruct (nums_valid b x G Vx) as (v & F1 & F2 & F3). exists (x :: x0), (v :: init). split; auto. split.
        + unfold init_x0 in *. cbn [traverse].
          assert (C : check_mixed_individual x b = true) by (apply check_spec; rewrite <- (valid_length _ _ Vx), firstn_all; auto).
          rewrite C, G, F1. cbn [bind]. rewrite G in E2. rewrite (traverse_shift _ _ 1 0), E2. reflexivity.
        + split; [simpl; auto|]. split; [constructor; auto|]. intros k' y [<-|Hk] Hy.
          * exists v. split; [left; auto|congruence].
          * destruct (E5 _ _ Hk Hy) as (w & Hw & Ew). exists w. split; [right|]; auto. }
    destruct (T (seq 0 npop) 0) as (x0 & init & E1 & E2 & E3 & E4 & E5). rewrite E1. cbn [bind].
    exists init. rewrite seq_length in E3. repeat split; auto. intros _ i v Hi Hc.
    destruct (E5 i _ ltac:(apply in_seq; lia) Hc) as (w & Hw & Ew).
    assert (w = v) as <-; auto. clear - Ew. revert v Ew. induction w; intros [|c v] E; simpl in E; try discriminate; auto.
    inversion E; subst. f_equal; auto.
  - exists (map (fun i => gen_indv (space_dims b) (gu i) (gk i)) (seq 0 npop)). split; auto.
    split; [rewrite map_length, seq_length; auto|]. split; [|discriminate].
    apply Forall_forall. intros x Hx. apply in_map_iff in Hx. destruct Hx as (i & <- & _). apply gen_indv_ok; auto.
Qed.

Lemma ackde_run order expf m fit b npop npop_rl irl F CR ngen data x0draw gu gk drs draw :
  sorts order -> has_grid b = false -> wf_dims (space_dims b) -> keeps_ints NearestInt (space_dims b) -> respects fit ->
  4 < npop -> npop_rl < npop -> 1 <= ngen -> data <> [] -> npop_rl <= length data -> Forall (valid b) data ->
  (forall i j, 0 <= gu i j <= 1)%Q ->
  exists r, ackde_evolute order expf m fit b npop npop_rl irl F CR ngen (Some data) x0draw gu gk drs draw = Some r /\
    best_of m fit (dr_seen r) (dr_x r) (dr_y r) /\
    Forall (feasible (space_dims b)) (dr_seen r) /\
    (irl = true -> forall i v, i < npop -> choice data (x0draw i) = Some (map VNum v) -> as_good m (dr_y r) (fit v)) /\
    length (dr_local r) = ngen /\ never_worse m (dr_local r) /\ last (dr_local r) 0%Q = dr_y r.
Proof.
  intros SO G W K R N4 NR NG ND NL V U. unfold ackde_evolute. cbn [bind]. unfold rl_accepts.
  destruct (Nat.ltb_spec npop_rl npop); [|lia]. destruct (Nat.ltb_spec 4 npop); [|lia]. cbn [andb].
  destruct (start_pop b npop data x0draw gu gk irl G W ND V U) as (init & E & L & FE & SH). rewrite E. cbn [bind].
  destruct (rows_valid b data G V) as (rows & E1 & E2 & E3 & E4). rewrite E1. cbn [bind].
  set (p := DePar (space_dims b) npop F CR NearestInt).
  assert (PO : pop_ok p init) by (split; auto).
  destruct (rde_total order SO expf m fit p ngen rows npop_rl W K R E4 NR drs draw init) as (r & ER); auto; [simpl; lia|lia|].
  exists r. split; auto. apply (rde_best order SO expf m fit p ngen rows npop_rl W K R E4 NR) in ER; auto.
  destruct ER as (B1 & B2 & B3 & B4 & B5 & B6 & _). repeat split; auto; try apply B1.
  intros HI i v Hi Hc. apply B2. eauto.
Qed.

Lemma strategy_ok p u : (p_smin p < p_smax p)%Q -> (forall i, 0 <= u i <= 1)%Q ->
  length (es_strategy p u) = length (p_dims p) /\ strat_ok (p_smin p) (p_smax p) (es_strategy p u).
Proof.
  intros S U. unfold es_strategy. split; [rewrite map_length, seq_length; auto|].
  apply Forall_forall. intros v Hv. apply in_map_iff in Hv. destruct Hv as (i & <- & _). destruct (U i). split; nra.
Qed.

Lemma ppoes_run expf tau tau' m fit b h npop_rl irl ngen data x0draw gu gk su drs draw :
  (forall q, 0 < expf q)%Q -> has_grid b = false -> wf_dims (space_dims b) ->
  (0 < pp_smin h)%Q -> (pp_smin h < pp_smax h)%Q -> (pp_smax h <= 1)%Q -> (pp_cxpb h + pp_mutpb h <= 1)%Q ->
  pp_blend h = true \/ 2 <= length b ->
  let mu := match pp_mu h with Some k => k | None => pp_npop h / 2 end in
  2 <= mu -> mu <= pp_npop h -> npop_rl < mu -> 1 <= ngen -> data <> [] -> npop_rl <= length data -> Forall (valid b) data ->
  (forall i j, 0 <= gu i j <= 1)%Q -> (forall i j, 0 <= su i j <= 1)%Q ->
  exists r, ppoes_evolute expf tau tau' m fit b h npop_rl irl ngen (Some data) x0draw gu gk su drs draw = Some r /\
    best_of m fit (r_seen r) (r_x r) (r_y r) /\
    Forall (feasible (space_dims b)) (r_seen r) /\ length (r_seen r) = ngen * pp_npop h /\
    length (r_global r) = ngen /\ never_worse m (r_global r).
Proof.
  intros He G W S0 S1 S2 CM Hb mu M1 M2 M3 NG ND NL V U SU. unfold ppoes_evolute. cbn [bind]. unfold rl_accepts.
  destruct (Nat.ltb_spec npop_rl (pp_npop h)); [|lia]. cbn [ppoes_es p_mu p_lambda p_cxpb p_mutpb andb].
  fold mu. destruct (Nat.leb_spec mu (pp_npop h)); [|lia]. cbn [andb].
  apply Qle_bool_iff in CM. rewrite CM.
  destruct (start_pop b (pp_npop h) data x0draw gu gk irl G W ND V U) as (init & E & L & FE & SH). rewrite E. cbn [bind].
  destruct (rows_valid b data G V) as (rows & E1 & E2 & E3 & E4). rewrite E1. cbn [bind].
  set (p := ppoes_es b h). set (ini := combine init _).
  assert (IL : length ini = p_lambda p). { unfold ini. rewrite combine_length, map_length, seq_length, L. simpl. lia. }
  assert (IG : Forall (good_pair p) ini).
  { apply Forall_forall. intros [x s] Hx. pose proof (in_combine_l _ _ _ _ Hx) as H1. pose proof (in_combine_r _ _ _ _ Hx) as H2.
    apply in_map_iff in H2. destruct H2 as (i & <- & _). destruct (strategy_ok p (su i)) as [L1 L2]; auto.
    split; [rewrite Forall_forall in FE; apply FE; auto|split; auto]. }
  assert (DL : length (p_dims p) = length b) by (simpl; unfold space_dims; apply map_length).
  assert (CB : p_clip p = true \/ p_blend p = false) by (left; reflexivity).
  destruct (res_total expf tau tau' m fit p rows npop_rl drs draw ini ngen) as (r & ER); auto; try lia.
  { destruct Hb; [left|right]; auto. lia. }
  exists r. split; auto.
  pose proof (res_feasible expf tau tau' m fit p rows npop_rl drs draw ini ngen r W S1 CB E4 IG ER) as [F1 F2].
  apply res_best in ER; auto. destruct ER as (B1 & B2 & B3 & B4 & _). repeat split; auto; apply B1.
Qed.
