(** Concrete runs of the RL-informed optimizers, and the witnesses of the refuted statements. *)
From Coq Require Import String List Arith ZArith QArith Qround Bool Permutation Sorting Lia Lqa.
From Verif Require Import Base BaseFacts Space_Model Space_Spec Space_Facts Space_Proofs Opt_Model Opt_Spec Opt_Facts Opt_Facts2 ES_Model ES_Spec ES_Proofs DE_Model DE_Proofs RLI_Model RLI_Spec RLI_Log RLI_Learn RLI_DE RLI_ES RLI_End.
Import ListNotations.
Open Scope nat_scope.

(** A sorting of positions. *)
Definition argsort (l : list Q) : list nat := map snd (sort_asc fst (combine l (seq 0 (length l)))).
Lemma argsort_sorts : sorts argsort.
Proof.
  intros l. unfold argsort. set (c := combine l (seq 0 (length l))).
  assert (CN : forall x i, In (x, i) c -> nth_error l i = Some x).
  { intros x i H. apply In_nth_error in H. destruct H as [k H]. unfold c in H.
    assert (E1 : nth_error (map fst c) k = Some x) by (unfold c; rewrite nth_error_map, H; reflexivity).
    assert (E2 : nth_error (map snd c) k = Some i) by (unfold c; rewrite nth_error_map, H; reflexivity).
    unfold c in E1, E2. rewrite map_fst_combine in E1 by (rewrite seq_length; auto). rewrite map_snd_combine in E2 by (rewrite seq_length; auto).
    assert (k < length l) by (apply nth_error_Some; congruence).
    rewrite (nth_error_nth' _ 0) in E2 by (rewrite seq_length; auto). rewrite seq_nth in E2 by auto. inversion E2; subst. auto. }
  split.
  - rewrite (sort_asc_perm fst c). unfold c. rewrite map_snd_combine by (rewrite seq_length; auto). auto.
  - intros i j a b x y L Ha Hb Hx Hy. rewrite nth_error_map in Ha, Hb.
    destruct (nth_error (sort_asc fst c) i) as [[x' a']|] eqn:Ei; [|discriminate].
    destruct (nth_error (sort_asc fst c) j) as [[y' b']|] eqn:Ej; [|discriminate].
    simpl in Ha, Hb. inversion Ha; inversion Hb; subst a' b'.
    assert (Ix : In (x', a) c) by (apply (Permutation_in _ (sort_asc_perm fst c)); eapply nth_error_In; eauto).
    assert (Iy : In (y', b) c) by (apply (Permutation_in _ (sort_asc_perm fst c)); eapply nth_error_In; eauto).
    apply CN in Ix. apply CN in Iy. assert (x' = x) as -> by congruence. assert (y' = y) as -> by congruence.
    pose proof (sort_asc_sorted fst c) as SS. destruct (Nat.eq_dec i j) as [->|Ne]; [assert (x = y) as -> by congruence; apply Qle_refl|].
    clear - SS Ei Ej L Ne. revert i j Ei Ej L Ne. induction SS as [|z s SS IH F]; intros i j Ei Ej L Ne; [destruct i; discriminate|].
    destruct i, j; cbn [nth_error] in *; try lia.
    + inversion Ei; subst z. rewrite Forall_forall in F. specialize (F _ (nth_error_In _ _ Ej)). exact F.
    + eapply IH; eauto; lia.
Qed.

(* ---------- the logger ---------- *)
Definition rd_steps : list (rlstep Q) :=
  [RStep [5; 7] [1; 2]; RStep [-3; 0] [3; 4]; RStep [9] [5]; RStep [-1; 8] [1; 6]; RStep [2] [7]]%Q.
Example rd_log : log_run Mmin 2 log_init rd_steps =
  Some (RLog 5 (Some (1, -1)) (Some (- (-1))) [- (-3); - (-1)] [3; 1])%Q.
Proof. reflexivity. Qed.
Definition rd_good : list (rlstep Q) := [RStep [-4; 7] [2; 2]; RStep [-1] [1]; RStep [-9; 0] [3; 3]; RStep [-1] [-1]]%Q.
Example rd_good_fit : forall e xr, In e rd_good -> first_env e xr -> snd xr = as_max Mmin ((fun x => x * x) (fst xr))%Q.
Proof.
  intros e [x r] H [H1 H2]. simpl in H. repeat destruct H as [<-|H]; try destruct H; simpl in *; inversion H1; inversion H2; reflexivity.
Qed.
Example rd_good_log : log_run Mmin 2 log_init rd_good = Some (RLog 4 (Some (1, -1)) (Some (- (-1))) [- (-1); - (-1)] [1; -1])%Q.
Proof. reflexivity. Qed.
Example rd_cum : exists a b c, calc_cumavg [4; 1; 3; 2; 9]%Q 2 = Some (a, b, c) /\ map Qred a = [5#2; 5#2; 9]%Q /\
  b = [Some (0, 4%Q); Some (0, 3%Q); Some (0, 9%Q)] /\ c = [Some (1, 1%Q); Some (1, 2%Q); Some (0, 9%Q)].
Proof. eexists. eexists. eexists. split; [reflexivity|]. split; [vm_compute; reflexivity|]. split; reflexivity. Qed.

(* ---------- learn ---------- *)
Definition rd_space : space := [("a", PInt 1 4); ("g", PGrid [VStr "u"; VStr "v"])]%string.
Definition rd_lx : list (list val) := [[VNum 1; VStr "v"]; [VNum 4; VStr "u"]; [VNum 2; VStr "v"]]%string.
Lemma rd_lx_ok : dict rd_space /\ Forall (valid rd_space) rd_lx.
Proof.
  split.
  - repeat constructor; simpl; intuition discriminate.
  - apply Forall_forall. intros x Hx. rewrite <- (firstn_all x).
    assert (length x = length rd_space) as -> by (simpl in Hx; repeat destruct Hx as [<-|Hx]; try destruct Hx; reflexivity).
    apply check_spec. simpl in Hx. repeat destruct Hx as [<-|Hx]; try destruct Hx; reflexivity.
Qed.
Example rd_learn : rl_learn argsort Mmin Mmin rd_space rd_lx [7; 3; 5]%Q 2 = Some [[VNum 4; VNum 0]; [VNum 2; VNum 1]].
Proof. reflexivity. Qed.
Example rd_learn_calls : rl_calls argsort Mmin rd_space None [CEvolute; CLearn Mmax rd_lx [7;3;5]%Q 2; CLearn Mmin rd_lx [7;3;5]%Q 1; CEvolute] =
  [None; None; Some [[VNum 4; VNum 0]]; Some [[VNum 4; VNum 0]]].
Proof. reflexivity. Qed.

(** String grids: the encoded rows are refused as initial population. *)
Example rd_grid_raises : rl_x0 5 [[VNum 4; VNum 0]; [VNum 2; VNum 1]] (fun i => i) <> None /\
  Forall (valid (fst (encode_grid_to_discrete rd_space))) [[VNum 4; VNum 0]; [VNum 2; VNum 1]] /\ string_grid (PGrid [VStr "u"; VStr "v"]%string).
Proof.
  split; [discriminate|]. split.
  - apply Forall_forall. intros x Hx. rewrite <- (firstn_all x).
    assert (length x = length (fst (encode_grid_to_discrete rd_space))) as -> by (simpl in Hx; repeat destruct Hx as [<-|Hx]; try destruct Hx; reflexivity).
    apply check_spec. simpl in Hx. repeat destruct Hx as [<-|Hx]; try destruct Hx; reflexivity.
  - eexists. split; [reflexivity|]. intros c [<-|[<-|[]]]; eauto.
Qed.

(** Numeric grids: the rows are encoded twice. *)
Definition rd_ngrid : space := [("a", PGrid [VNum 1; VNum 0])]%string.
Lemma rd_twice : exists order b lx lr data x0 init v x,
  sorts order /\ dict b /\ Forall (valid b) lx /\ rl_learn order Mmin Mmin b lx lr 100 = Some data /\
  rl_x0 5 data (fun i => i) = Some x0 /\ init_x0 b x0 = Some init /\ In v init /\
  decode_discrete_to_grid (map VNum v) b (snd (encode_grid_to_discrete b)) = Some x /\
  forall y, In y lx -> ~ same_indv x y.
Proof.
  exists argsort, rd_ngrid, [[VNum 1]], [3%Q], [[VNum 0]]. do 4 eexists.
  split; [apply argsort_sorts|]. split; [repeat constructor; simpl; tauto|]. split.
  { repeat constructor. simpl. exists (VNum 1). split; simpl; auto. reflexivity. }
  split; [reflexivity|]. split; [reflexivity|]. split; [reflexivity|]. split; [left; reflexivity|]. split; [reflexivity|].
  intros y [<-|[]] H. inversion H as [|? ? ? ? E]; subst. simpl in E. unfold Qeq in E. simpl in E. lia.
Qed.

(* ---------- RL-informed differential evolution ---------- *)
Definition rd_b : space := [("x", PInt 0 3); ("y", PFloat (-1) 1)]%string.
Definition rd_data : list (list val) := [[VNum 3; VNum 1]; [VNum 0; VNum (-1)]; [VNum 2; VNum (1#2)]].
Definition rd_fit (x : list Q) : Q := (nth 0 x 0 + nth 1 x 0)%Q.
Lemma rd_b_ok : has_grid rd_b = false /\ wf_dims (space_dims rd_b) /\ keeps_ints NearestInt (space_dims rd_b) /\ respects rd_fit /\ Forall (valid rd_b) rd_data.
Proof.
  split; [reflexivity|]. split; [|split; [|split]].
  - repeat constructor; simpl; try (unfold Qle; simpl; lia); try discriminate; intros; eexists; reflexivity.
  - destruct de_demo_ok as (_ & K & _). unfold keeps_ints in *. auto.
  - intros x y H. unfold rd_fit. inversion H as [|a b x' y' E H1]; subst; [reflexivity|].
    simpl. rewrite E. inversion H1 as [|a' b' x'' y'' E' H2]; subst; [reflexivity|]. simpl. rewrite E'. reflexivity.
  - apply Forall_forall. intros x Hx. rewrite <- (firstn_all x).
    assert (length x = length rd_b) as -> by (simpl in Hx; repeat destruct Hx as [<-|Hx]; try destruct Hx; reflexivity).
    apply check_spec. simpl in Hx. repeat destruct Hx as [<-|Hx]; try destruct Hx; reflexivity.
Qed.
Lemma rd_ackde expf drs draw : exists r,
  ackde_evolute argsort expf Mmax rd_fit rd_b 5 2 true (1#2) (3#10) 7 (Some rd_data) (fun i => i) (fun _ _ => 0%Q) (fun _ _ => 0) drs draw = Some r /\
  (4 <= dr_y r)%Q /\ feasible (space_dims rd_b) (dr_x r).
Proof.
  destruct rd_b_ok as (G & W & K & R & V).
  destruct (ackde_run argsort expf Mmax rd_fit rd_b 5 2 true (1#2) (3#10) 7 rd_data (fun i => i) (fun _ _ => 0%Q) (fun _ _ => 0) drs draw) as (r & E & B & F & S & _);
    auto using argsort_sorts; try (simpl; lia); try discriminate; [intros; split; discriminate|].
  exists r. split; auto. split.
  - specialize (S eq_refl 0 [3; 1]%Q ltac:(lia) eq_refl). unfold as_good, rd_fit in S. simpl in S. lra.
  - rewrite Forall_forall in F. apply F. apply B.
Qed.

(** The final population is reported with the scores of the individuals that were replaced. *)
Definition rd_draw : de_draw := DeDraw 0 1 2 (fun _ => 1%Q) (fun _ => 0%Q) (fun _ => 0) (fun _ => 0%Q) (fun _ => 0).
Lemma rd_last expf : exists order p data n drs draw init ngen r i x y,
  sorts order /\ wf_dims (de_dims p) /\ keeps_ints (de_method p) (de_dims p) /\ respects rd_fit /\ n < de_npop p /\ n <= length data /\
  Forall (feasible (de_dims p)) data /\ pop_ok p init /\
  rde_evolute order expf Mmax rd_fit p ngen data n drs draw init = Some r /\
  nth_error (dr_pop r) i = Some x /\ nth_error (dr_fits r) i = Some y /\ ~ (y == rd_fit x)%Q.
Proof.
  exists argsort, (DePar (space_dims rd_b) 5 (1#2) (3#10) NearestInt), [[3; 1]]%Q, 1, (fun _ _ => rd_draw), (fun _ i => i), (repeat [0; 0]%Q 5), 1.
  eexists. exists 0. do 2 eexists. destruct rd_b_ok as (G & W & K & R & V). split; [apply argsort_sorts|]. split; [exact W|]. split; [exact K|]. split; [exact R|].
  split; [simpl; lia|]. split; [simpl; lia|]. split; [|split; [|split; [vm_compute; reflexivity|]]].
  - repeat constructor; simpl; try (unfold Qle; simpl; lia); try discriminate; intros; eexists; reflexivity.
  - split; [reflexivity|]. repeat constructor; simpl; try (unfold Qle; simpl; lia); try discriminate; intros; exists 0%Z; reflexivity.
  - cbn [dr_pop dr_fits]. split; [reflexivity|]. split; [reflexivity|]. vm_compute. discriminate.
Qed.

(* ---------- RL-informed evolution strategies ---------- *)
Definition rd_h : ppo_par := PpoPar 6 None true (1#10) (3#10) (3#10) (1#100) (1#2).
Lemma rd_ppoes drs draw : exists r,
  ppoes_evolute (fun q => 1 + q * q)%Q (fun _ => 1%Q) (fun _ => 1#2)%Q Mmin rd_fit rd_b rd_h 2 true 3 (Some rd_data) (fun i => i)
    (fun _ _ => 0%Q) (fun _ _ => 0) (fun _ _ => 1#2)%Q drs draw = Some r /\ length (r_seen r) = 18 /\ best_of Mmin rd_fit (r_seen r) (r_x r) (r_y r).
Proof.
  destruct rd_b_ok as (G & W & K & R & V).
  destruct (ppoes_run (fun q => 1 + q * q)%Q (fun _ => 1%Q) (fun _ => 1#2)%Q Mmin rd_fit rd_b rd_h 2 true 3 rd_data (fun i => i)
    (fun _ _ => 0%Q) (fun _ _ => 0) (fun _ _ => 1#2)%Q drs draw) as (r & E & B & F & L & _); auto; try (simpl; lia); try discriminate; try reflexivity.
  - intros q. nra.
  - intros; split; discriminate.
  - intros; split; discriminate.
  - exists r. auto.
Qed.

(** As many RL individuals as selected members: the best fitness is reported with an RL individual. *)
Definition rd_h4 : ppo_par := PpoPar 4 None true (1#2) 0 0 (1#100) (1#2).
Lemma rd_all_replaced expf tau tau' : exists npop_rl data draw drs r,
  rl_accepts (pp_npop rd_h4) npop_rl = true /\ npop_rl <= length data /\ Forall (valid rd_b) data /\
  ppoes_evolute expf tau tau' Mmax rd_fit rd_b rd_h4 npop_rl true 1 (Some data) (fun i => i)
    (fun _ _ => 0%Q) (fun _ _ => 0) (fun _ _ => 1#2)%Q drs draw = Some r /\ ~ (r_y r == rd_fit (r_x r))%Q.
Proof.
  exists 2, rd_data, (fun _ i => i), (fun _ k => ODraw (1#2) k 0 0 0 (fun _ => 0%Q) (fun _ => 0%Q) (MDraw (fun _ => 0%Q) (fun _ => 0%Q) (fun _ => 0%Q) (fun _ => 0%Q) (fun _ => 0))).
  eexists. split; [reflexivity|]. split; [simpl; lia|]. split; [apply rd_b_ok|]. split; [vm_compute; reflexivity|]. vm_compute. discriminate.
Qed.
Lemma ppoes_alpha expf tau tau' m fit b h a npop_rl irl ngen data x0draw gu gk su drs draw :
  ppoes_evolute expf tau tau' m fit b (PpoPar (pp_npop h) (pp_mu h) (pp_blend h) a (pp_cxpb h) (pp_mutpb h) (pp_smin h) (pp_smax h)) npop_rl irl ngen data x0draw gu gk su drs draw =
  ppoes_evolute expf tau tau' m fit b h npop_rl irl ngen data x0draw gu gk su drs draw.
Proof. reflexivity. Qed.
