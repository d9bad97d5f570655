(** Numbers of evaluations of FNEAT and RNEAT (C79). *)
From Coq Require Import List Arith ZArith QArith Bool Lia.
From Verif Require Import Base Space_Model Opt_Model Opt_Spec Opt_Facts2 Env_Model Env_Spec NE_Model NE_Spec NE_Proofs NE_More.
Import ListNotations.
Open Scope nat_scope.

Lemma new_fresh set_order act_sample obs_sample c sp st : env_new set_order act_sample obs_sample c = Some (sp, st) -> n_counter st = 0 /\ n_done st = false.
Proof. unfold env_new. intros H. apply bind_Some in H. destruct H as (sp1 & _ & H). apply bind_Some in H. destruct H as (r & _ & H). injection H as _ <-. auto. Qed.
Lemma F2len {A B} (R : A -> B -> Prop) l l' : Forall2 R l l' -> length l = length l'.
Proof. induction 1; cbn; congruence. Qed.
Lemma log_len k (eps : list (list eresult)) : Forall (fun e => length e = k) eps -> length (concat (map (map r_x) eps)) = k * length eps.
Proof. induction 1 as [|e l H1 H2 IH]; [cbn; lia|]. cbn. rewrite app_length, map_length, IH, H1. lia. Qed.

Section F.
  Context {G N : Type} (net_new : G -> N) (activate : N -> list Q -> N * list Q)
          (fit : list val -> Q) (set_order : list Z -> list Z) (act_sample : nat -> action) (obs_sample : nat -> list Q) (randint : nat -> Z -> Z -> Z) (c : econf)
          (sp : aspace).
  Notation evolute lib x0 := (neat_evolute net_new activate lib fit act_sample obs_sample randint c sp x0).

  Theorem count_reset lib fuel ngen st x y gl lo fits st' log : 1 <= ec_len c -> env_new set_order act_sample obs_sample c = Some (sp, st) ->
    evolute lib None false fuel ngen st = Some (x, y, gl, lo, fits, st', log) -> length log = ec_len c * length (concat fits).
  Proof.
    intros Hl Hn H. destruct (new_fresh _ _ _ _ _ _ Hn) as (H0 & Hd). apply serial_run in H; [|lia]. destruct H as (gens & eps & _ & _ & C & _ & -> & _ & _ & F).
    rewrite (F2len _ _ _ F). apply log_len. eapply reset_len; [| | |exact C]; auto.
  Qed.
  Theorem count_x0 lib x0 fuel ngen st x y gl lo fits st' log : 1 <= ec_len c -> env_new set_order act_sample obs_sample c = Some (sp, st) ->
    evolute lib (Some x0) false fuel ngen st = Some (x, y, gl, lo, fits, st', log) -> length log + 1 = ec_len c + length (concat fits).
  Proof.
    intros Hl Hn H. destruct (new_fresh _ _ _ _ _ _ Hn) as (H0 & Hd). apply serial_run in H; [|lia]. destruct H as (gens & eps & _ & _ & C & _ & -> & (B & _) & _ & F).
    rewrite (F2len _ _ _ F). apply first_then_ones in C; auto; [|discriminate]. destruct eps as [|e l]; [destruct B|]. destruct C as (C1 & C2). cbn. rewrite app_length, map_length, C1, (log_len 1 l C2). lia.
  Qed.
  Theorem count_again lib x0 fuel ngen st x y gl lo fits st' log lib2 fuel2 ngen2 x2 y2 gl2 lo2 fits2 st2 log2 :
    1 <= ec_len c -> env_new set_order act_sample obs_sample c = Some (sp, st) ->
    evolute lib (Some x0) false fuel ngen st = Some (x, y, gl, lo, fits, st', log) ->
    evolute lib2 (Some x0) false fuel2 ngen2 st' = Some (x2, y2, gl2, lo2, fits2, st2, log2) -> length log2 = length (concat fits2).
  Proof.
    intros Hl Hn H H2. destruct (new_fresh _ _ _ _ _ _ Hn) as (H0 & Hd). apply serial_run in H; [|lia]. destruct H as (gens & eps & _ & _ & C & Hc & -> & (B & _) & _ & F).
    apply serial_run in H2; [|exact Hc]. destruct H2 as (gens2 & eps2 & _ & _ & C2 & _ & -> & _ & _ & F2).
    assert (D : n_done st' = true).
    { destruct (concat gens) as [|g gs], eps as [|e l]; cbn in C; try contradiction. destruct C as (st1 & E1 & E2).
      destruct (episode_len net_new activate fit act_sample obs_sample randint c sp (Some x0) g st e st1 ltac:(lia) E1) as (_ & D1 & D2 & _). eapply ones in E2; [apply E2|discriminate|exact D2|exact D1]. }
    eapply ones in C2; [|discriminate|exact Hc|exact D]. destruct C2 as (C2 & _). rewrite (log_len 1 _ C2), (F2len _ _ _ F2). lia.
  Qed.
  Theorem count_parallel lib x0 fuel ngen st x y gl lo fits st' log : 1 <= ec_len c -> env_new set_order act_sample obs_sample c = Some (sp, st) ->
    evolute lib x0 true fuel ngen st = Some (x, y, gl, lo, fits, st', log) -> length log = ec_len c * length (concat fits) /\ st' = st.
  Proof.
    intros Hl Hn H. destruct (new_fresh _ _ _ _ _ _ Hn) as (H0 & Hd). apply parallel_run in H. destruct H as (gens & eps & _ & _ & C & E & -> & _ & _ & F). split; [|exact E].
    rewrite (F2len _ _ _ F). apply log_len. eapply copies_len; [| | |exact C]; auto.
  Qed.
End F.
