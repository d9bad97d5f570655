(** The training loop of ACER refines the specification (C77). *)
From Coq Require Import List Arith ZArith QArith Bool Lia Lqa Permutation.
From Verif Require Import Base BaseFacts Opt_Model Opt_Facts Sched_Model CB_Model CB_Spec CB_Proofs CB_Every CB_Eval CB_Total LN_Model LN_Spec LN_Proofs LN_Algs.
Import ListNotations.
Open Scope nat_scope.

Lemma in_cell_new sz u : 1 <= sz -> in_cell sz u (u mod sz) = u.
Proof.
  intros H. unfold in_cell. rewrite (Nat.div_mod u sz) at 2 by lia. replace (sz * (u / sz) + u mod sz - u mod sz) with (u / sz * sz) by lia.
  rewrite Nat.mod_mul by lia. lia.
Qed.
Lemma in_cell_old sz u i : 1 <= sz -> i < sz -> i < u -> i <> u mod sz -> in_cell sz u i = in_cell sz (u - 1) i.
Proof.
  intros H Hi Hu Hn. unfold in_cell.
  assert (Hm : (u - i) mod sz <> 0).
  { intros E. apply Hn. apply Nat.mod_divides in E; [|lia]. destruct E as (q & E). replace u with (i + q * sz) by lia. rewrite Nat.mod_add by lia. symmetry. apply Nat.mod_small. lia. }
  assert (E : (u - 1 - i) mod sz = (u - i) mod sz - 1).
  { symmetry. apply (Nat.mod_unique _ _ ((u - i) / sz)); [pose proof (Nat.mod_upper_bound (u - i) sz ltac:(lia)); lia|]. pose proof (Nat.div_mod (u - i) sz ltac:(lia)). lia. }
  rewrite E. pose proof (Nat.mod_le (u - i) sz ltac:(lia)). lia.
Qed.
Lemma in_cell_le sz j i : in_cell sz j i <= j.
Proof. unfold in_cell. lia. Qed.
Lemma in_cell_recent sz j i : 1 <= sz -> j < in_cell sz j i + sz.
Proof. intros H. unfold in_cell. pose proof (Nat.mod_upper_bound (j - i) sz ltac:(lia)). lia. Qed.

Lemma traverse_nth {X Y} (f : X -> option Y) (g : X -> Y) l : (forall x, In x l -> f x = Some (g x)) -> forall i, traverse (fun _ x => f x) i l = Some (map g l).
Proof. intros H. induction l as [|a r IH]; intros i; [reflexivity|]. simpl. rewrite (H a (or_introl eq_refl)). cbn [bind]. rewrite IH; [reflexivity|]. intros x Hx. apply H. right; exact Hx. Qed.

Lemma set_nth_length {A} (l : list A) : forall i x, length (set_nth l i x) = length l.
Proof. induction l as [|a r IH]; intros [|i] x; simpl; auto. Qed.

Section L.
  Context {St O A : Type} (enext : St -> A -> St) (rew : St -> A -> list Q) (obs_of : St -> O) (dones_of : St -> list bool)
          (act : nat -> O -> list bool -> A) (clip : A -> A)
          (ans : nat -> nat -> answer) (ev : nat -> nat -> Q) (pois : nat -> nat) (draws : nat -> nat -> nat -> nat).
  Notation rollout := (rollout enext rew obs_of dones_of act clip ans ev).
  Notation synced := (synced obs_of dones_of).
  Notation path := (path enext rew obs_of dones_of act clip).
  Notation after := (after enext clip).
  Notation transcript := (transcript enext clip).
  Notation seen := (seen enext obs_of dones_of clip).
  Notation calls := (calls ans ev).
  Notation run := (runner St O).
  Notation items := (list (item St O A)).
  Notation rows := (list (row O A)).
  Notation loop := (loop enext rew obs_of dones_of act clip ans ev).
  Notation acer_updates := (acer_updates enext rew obs_of dones_of act clip ans ev pois draws).
  Notation acer_learn := (acer_learn enext rew obs_of dones_of act clip ans ev pois draws).
  Notation buffer := (@buffer O A).
  Notation cell := (@cell O A).

  Definition stepC (start e n : nat) (sch : scheduler) (x : nat * option buffer) (nt : nat) (l : rows) (o : O * list bool) : option (nat * option buffer * items) :=
    let* buf' := match snd x with None => Some None | Some b => let* b' := put b (l, o) in Some (Some b') end in
    let* lr := value_steps sch nt in
    let* rep := match buf' with
                | None => Some []
                | Some b => if has_atleast b start n then traverse (fun _ i => replay1 draws sch b e nt (fst x) i) 0 (seq 0 (pois (fst x))) else Some []
                end in
    Some (1 + fst x, buf', ITrain (Training nt lr l o []) :: rep).
  Lemma acer_loop start e n sch k : forall u (rs : run) c nt buf, acer_updates start u k e n rs c nt sch buf = loop true false e n (stepC start e n sch) k rs c nt (u, buf).
  Proof.
    induction k as [|k IH]; intros u rs c nt buf; [reflexivity|]. cbn [LN_Model.acer_updates LN_Proofs.loop]. unfold signals.
    destruct (rollout false e n rs c nt) as [[[[[rs1 c1] nt1] its1] [l|]]|]; cbn [bind]; auto.
    unfold stepC at 1. cbn [fst snd].
    destruct (match buf with None => _ | Some b => _ end) as [buf'|]; cbn [bind]; auto.
    destruct (value_steps sch nt1) as [lr|]; cbn [bind]; auto.
    destruct (match buf' with None => _ | Some b => _ end) as [rep|]; cbn [bind]; auto. rewrite IH.
    destruct (loop true false e n (stepC start e n sch) k rs1 c1 nt1 (1 + u, buf')) as [[[[? ?] ?] ?]|]; reflexivity.
  Qed.

  (** The buffer after [u] rollouts. *)
  Definition holds (sz u : nat) (stored : nat -> cell) (b : buffer) : Prop :=
    b_size b = sz /\ b_next b = u mod sz /\ length (b_mem b) = min u sz /\
    forall i, i < min u sz -> nth_error (b_mem b) i = Some (stored (in_cell sz (u - 1) i)).
  Lemma put_holds sz u stored b b' : 1 <= sz -> holds sz u stored b -> put b (stored u) = Some b' -> holds sz (S u) stored b'.
  Proof.
    intros Hs (H1 & H2 & H3 & H4) H. unfold put in H. rewrite H1 in H. destruct (Nat.eqb_spec sz 0) as [E|E]; [lia|]. injection H as <-. rewrite H2, H3.
    assert (Nx : (u mod sz + 1) mod sz = S u mod sz). { rewrite Nat.add_mod_idemp_l by lia. f_equal. lia. }
    assert (Hm : u mod sz < sz) by (apply Nat.mod_upper_bound; lia).
    unfold holds. cbn [b_size b_next b_mem]. split; [reflexivity|]. split; [exact Nx|].
    replace (S u - 1) with u by lia.
    destruct (Nat.ltb_spec (u mod sz) (min u sz)) as [Hl|Hl].
    - assert (Hu : sz <= u). { destruct (le_lt_dec sz u); auto. rewrite Nat.mod_small in Hl by lia. lia. }
      split; [rewrite set_nth_length; lia|]. intros i Hi. destruct (Nat.eq_dec i (u mod sz)) as [->|Ni].
      + rewrite nth_error_set_nth, Nat.eqb_refl. assert (u mod sz <? length (b_mem b) = true) as -> by (apply Nat.ltb_lt; lia). rewrite in_cell_new by lia. reflexivity.
      + rewrite nth_error_set_nth. assert (i =? u mod sz = false) as -> by (apply Nat.eqb_neq; exact Ni). rewrite H4 by (clear - Hi Hu; lia). rewrite (in_cell_old sz u i); [reflexivity|exact Hs|clear - Hi; lia|clear - Hi Hu; lia|exact Ni].
    - assert (Hu : u < sz). { destruct (le_lt_dec sz u); auto. lia. }
      rewrite Nat.mod_small in * by lia. split; [rewrite app_length, H3; cbn [length]; lia|]. intros i Hi. destruct (Nat.eq_dec i u) as [->|Ni].
      + rewrite nth_error_app2 by lia. rewrite H3. replace (u - min u sz) with 0 by lia. simpl. do 2 f_equal. pose proof (in_cell_new sz u Hs) as Q. rewrite (Nat.mod_small u sz Hu) in Q. symmetry; exact Q.
      + rewrite nth_error_app1 by lia. rewrite H4 by lia. rewrite (in_cell_old sz u i); [reflexivity|exact Hs|lia|lia|rewrite Nat.mod_small by lia; exact Ni].
  Qed.

  Lemma acer_spec lr0 crv ratio size start e n total reset (rs : run) c nt rs' c' nt' its : synced rs ->
    acer_learn lr0 crv ratio size start e n total reset rs c nt = Some (rs', c', nt', its) ->
    let nt0 := if reset then 0 else nt in
    exists u stopped rows outs,
      path (r_q rs) (r_env rs) rows /\ calls c (counts nt0 e (length rows)) = Some (c', outs) /\ ends n ((total + e * n - 1) / (e * n)) u stopped outs /\
      (let lr j := (lr0 * crv (inject_Z (Z.of_nat (nt0 + e * n * S j)) / inject_Z (Z.of_nat total)))%Q in
       let stored j := (part n j rows, seen (r_env rs) rows (S j * n)) in
       its = transcript n u stopped (r_env rs) c rows outs (fun j =>
         ITrain (Training (nt0 + e * n * S j) (lr j) (fst (stored j)) (snd (stored j)) []) ::
         replayed pois draws start e n (size / n) stored ratio (nt0 + e * n * S j) (lr j) j)) /\
      (ratio = true -> size < n -> u = 0) /\
      nt' = nt0 + e * length rows /\ r_env rs' = after (r_env rs) rows /\ (stopped = false -> synced rs').
  Proof.
    intros Sy H nt0. unfold LN_Model.acer_learn in H. destruct (Nat.eqb_spec (e * n) 0) as [Z|Z]; [discriminate H|]. fold nt0 in H.
    assert (Hn : 1 <= n) by (destruct n; lia).
    set (buf0 := if ratio then Some (Buffer (size / n) [] 0) else None : option buffer).
    assert (B0 : (if ratio then let* b := new_buffer size n in Some (Some b) else Some None) = Some buf0).
    { unfold new_buffer. assert (n =? 0 = false) as -> by (apply Nat.eqb_neq; lia). destruct ratio; reflexivity. }
    rewrite B0 in H. cbn [bind] in H.
    destruct (acer_updates start 0 ((total + e * n - 1) / (e * n)) e n rs c nt0 (new_scheduler lr0 total crv) buf0) as [[[[rs1 c1] nt1] its1]|] eqn:E; [|discriminate H]. cbn [bind] in H. injection H as <- <- <- <-.
    rewrite acer_loop in E. apply loop_spec in E; [|exact Hn|exact Sy].
    destruct E as (u & stopped & rw & outs & upd & xs & P & C & En & -> & X0 & Xs & Ent & Ee & Eq & Sy').
    exists u, stopped, rw, outs. split; [exact P|]. split; [exact C|]. split; [exact En|]. cbv zeta.
    set (stored := fun j => (part n j rw, seen (r_env rs) rw (S j * n))).
    assert (Sz : ratio = true -> 0 < u -> 1 <= size / n).
    { intros -> Hu. specialize (Xs 0 Hu). unfold stepC in Xs. rewrite X0 in Xs. unfold buf0 in Xs. cbn [fst snd] in Xs. unfold put in Xs. cbn [b_size] in Xs.
      destruct (Nat.eqb_spec (size / n) 0); [discriminate Xs|lia]. }
    assert (K : forall j, j <= u -> fst (xs j) = j /\ match snd (xs j) with Some b => ratio = true /\ holds (size / n) j stored b | None => ratio = false end).
    { induction j as [|j IH]; intros Hj.
      - rewrite X0. unfold buf0. cbn [fst snd]. split; [reflexivity|]. destruct ratio; [|reflexivity]. split; [reflexivity|].
        unfold holds. cbn [b_size b_next b_mem length]. repeat split; auto.
        + destruct (size / n); [reflexivity|]. symmetry; apply Nat.mod_small; lia.
        + intros i Hi. simpl in Hi. lia.
      - destruct (IH ltac:(lia)) as (I1 & I2). specialize (Xs j ltac:(lia)). unfold stepC in Xs. rewrite I1 in Xs.
        destruct (snd (xs j)) as [b|].
        + destruct I2 as (Hr & I2). specialize (Sz Hr ltac:(lia)).
          change (part n j rw, seen (r_env rs) rw (S j * n)) with (stored j) in Xs.
          destruct (put b (stored j)) as [b'|] eqn:Ep; [|discriminate Xs]. cbn [bind] in Xs.
          destruct (value_steps _ _) as [lr|]; [|discriminate Xs]. cbn [bind] in Xs.
          destruct (if has_atleast b' start n then _ else _) as [rep|]; [|discriminate Xs]. cbn [bind] in Xs. injection Xs as Xs _. rewrite <- Xs. cbn [fst snd].
          split; [reflexivity|]. split; [exact Hr|]. eapply put_holds; eauto.
        + cbn [bind] in Xs. destruct (value_steps _ _) as [lr|]; [|discriminate Xs]. cbn [bind] in Xs. injection Xs as Xs _. rewrite <- Xs. cbn [fst snd]. auto. }
    split.
    { unfold LN_Spec.transcript. unfold signals. rewrite (calls_same _ _ _ _ _ _ C). rewrite <- !app_assoc. do 2 f_equal.
      apply fm_ext_in. intros j Hj. apply in_seq in Hj. f_equal. destruct (K j ltac:(lia)) as (I1 & I2). destruct (K (S j) ltac:(lia)) as (I1' & I2').
      specialize (Xs j ltac:(lia)). unfold stepC in Xs. rewrite I1 in Xs. unfold value_steps in Xs. cbn [new_scheduler svals sinit Sched_Model.curve] in Xs.
      destruct (snd (xs j)) as [b|].
      - destruct I2 as (Hr & I2). specialize (Sz Hr ltac:(lia)).
        change (part n j rw, seen (r_env rs) rw (S j * n)) with (stored j) in Xs.
        destruct (put b (stored j)) as [b'|] eqn:Ep; [|discriminate Xs]. cbn [bind] in Xs.
        destruct (Nat.eqb total 0) eqn:Et; [discriminate Xs|]. cbn [bind] in Xs.
        pose proof (put_holds _ _ _ _ _ Sz I2 Ep) as (H1 & H2 & H3 & H4).
        unfold replayed. change (1 + j) with (S j). rewrite Hr. cbn [andb]. unfold has_atleast in Xs. rewrite H3 in Xs. destruct (start / n <=? min (S j) (size / n)).
        + erewrite traverse_nth in Xs.
          2:{ intros i _. unfold replay1, get. rewrite H3. erewrite (traverse_nth (fun i0 => nth_error (b_mem b') i0)).
              2:{ intros d Hd. apply in_map_iff in Hd. destruct Hd as (v & <- & _).
                  pose proof (Nat.mod_upper_bound (draws j i v) (min (S j) (size / n)) ltac:(lia)).
                  rewrite H4 by lia. replace (S j - 1) with j by lia. instantiate (1 := fun d => stored (in_cell (size / n) j d)). reflexivity. }
              cbn [bind]. unfold value_steps. cbn [new_scheduler svals sinit Sched_Model.curve]. rewrite Et. cbn [bind]. rewrite map_map. reflexivity. }
          cbn [bind] in Xs. injection Xs as _ Xs. rewrite <- Xs. reflexivity.
        + cbn [bind] in Xs. injection Xs as _ Xs. rewrite <- Xs. reflexivity.
      - cbn [bind] in Xs. destruct (Nat.eqb total 0) eqn:Et; [discriminate Xs|]. cbn [bind] in Xs. injection Xs as _ Xs. rewrite <- Xs. unfold replayed. rewrite I2. reflexivity. }
    split; [|split; [exact Ent|]; split; [exact Ee|]; intros F; apply Sy'; left; exact F].
    intros Hr Hs. destruct u; auto. specialize (Sz Hr ltac:(lia)). rewrite Nat.div_small in Sz by exact Hs. lia.
  Qed.
End L.
