(** Proofs about PESAX: the methods, memory, replay and one generation. *)
From Coq Require Import List Arith ZArith QArith Bool Lia Lqa Permutation Sorted.
From Verif Require Import Base BaseFacts Space_Model Space_Spec Space_Facts ER_Model ER_Proofs Opt_Model Opt_Spec Opt_Facts Opt_Facts2 Pop_Model Pop_Spec Pop_Proofs
  ES_Model PSO_Model DE_Model DE_Proofs P2_Model P2_Spec P2_Mem P2_DE P2_Proofs P1_Model P1_Spec P1_ES P1_SA P1_PSO P1_Proofs PX_Model PX_Spec.
Import ListNotations.
Open Scope nat_scope.

(** ** References to new lists. *)
Lemma get_app h l r : r < length h -> h_get (h ++ l) r = h_get h r.
Proof. intros H. unfold h_get. rewrite app_nth1 by auto. reflexivity. Qed.
Lemma new_read vs : forall h, map (h_get (h ++ vs)) (seq (length h) (length vs)) = vs.
Proof.
  induction vs as [|v vs IH]; intros h; cbn [length seq map]; auto. f_equal.
  - unfold h_get. rewrite app_nth2, Nat.sub_diag by lia. reflexivity.
  - specialize (IH (h ++ [v])). rewrite <- app_assoc in IH. replace (length (h ++ [v])) with (S (length h)) in IH by (rewrite app_length; simpl; lia). exact IH.
Qed.
Lemma new_map2 {A C} (v : A -> list Q) (f : ref -> A -> C) : forall (l : list A) h,
  Forall2 (fun c b => exists r, c = f r b /\ r < length (h ++ map v l) /\ h_get (h ++ map v l) r = v b) (map2 f (seq (length h) (length l)) l) l.
Proof.
  induction l as [|a l IH]; intros h; cbn [length seq map map2]; constructor.
  - exists (length h). split; auto. split; [rewrite app_length; simpl; lia|]. unfold h_get. rewrite app_nth2, Nat.sub_diag by lia. reflexivity.
  - specialize (IH (h ++ [v a])). rewrite <- app_assoc in IH. replace (length (h ++ [v a])) with (S (length h)) in IH by (rewrite app_length; simpl; lia). exact IH.
Qed.
Lemma Forall2_in_l {A B} (R : A -> B -> Prop) l r : Forall2 R l r -> forall a, In a l -> exists b, In b r /\ R a b.
Proof. induction 1; intros c []; subst; [exists y; simpl; auto|]. destruct (IHForall2 c) as (b & ? & ?); auto. exists b; simpl; auto. Qed.
Lemma Forall2_in_r {A B} (R : A -> B -> Prop) l r : Forall2 R l r -> forall b, In b r -> exists a, In a l /\ R a b.
Proof. induction 1; intros c []; subst; [exists x; simpl; auto|]. destruct (IHForall2 c) as (b & ? & ?); auto. exists b; simpl; auto. Qed.
Lemma firstn_pre {A} n (l l' : list A) : n <= length l -> firstn n (l ++ l') = firstn n l.
Proof. intros H. rewrite firstn_app. replace (n - length l) with 0 by lia. simpl. rewrite app_nil_r. auto. Qed.
Lemma Qeq_of (a b : Q) : a = b -> (a == b)%Q.
Proof. intros ->. reflexivity. Qed.
Lemma Forall2_len {A B} (R : A -> B -> Prop) l r : Forall2 R l r -> length l = length r.
Proof. induction 1; simpl; auto. Qed.

Lemma Forall2_weaken {A B} (R R' : A -> B -> Prop) l r : (forall a b, R a b -> R' a b) -> Forall2 R l r -> Forall2 R' l r.
Proof. intros H. induction 1; constructor; auto. Qed.

Definition new_of (h : heap) (c : xmem) (b : member) : Prop :=
  xm_ind c < length h /\ h_get h (xm_ind c) = m_ind b /\ xm_strat c = m_strat b /\ xm_fit c = m_fit b.
Lemma new_mems_ok h l h1 xs : new_mems h l = (h1, xs) -> h1 = h ++ map m_ind l /\ Forall2 (new_of h1) xs l.
Proof.
  unfold new_mems, h_new. intros E. injection E as <- <-. split; auto. rewrite map_length.
  pose proof (new_map2 m_ind (fun r a => XMem r (m_strat a) (m_fit a)) l h) as H.
  eapply Forall2_weaken; [|exact H]. intros c b (r & -> & H1 & H2). unfold new_of. cbn. auto.
Qed.
Definition new_par (h : heap) (c : xpar) (b : par1) : Prop :=
  xp_pos c < length h /\ h_get h (xp_pos c) = q_pos b /\ xp_vel c = q_vel b /\ xp_fit c = q_fit b /\
  xp_lpos c < length h /\ h_get h (xp_lpos c) = q_lpos b /\ xp_lfit c = q_lfit b.
Lemma new_pars_ok h l h2 xs : new_pars h l = (h2, xs) -> h2 = h ++ map q_pos l ++ map q_lpos l /\ Forall2 (new_par h2) xs l.
Proof.
  unfold new_pars, h_new. intros E. injection E as <- <-. split; [rewrite app_assoc; auto|]. rewrite !map_length.
  set (h1 := h ++ map q_pos l). set (f := fun r a => fun pos => XPar pos (q_vel a) (q_fit a) r (q_lfit a)).
  pose proof (new_map2 q_pos (fun r a => (r, a)) l h) as H1. fold h1 in H1. pose proof (new_map2 q_lpos f l h1) as H2.
  assert (L : Forall (fun r => r < length h1) (seq (length h) (length l))).
  { apply Forall_forall. intros r Hr. apply in_seq in Hr. unfold h1. rewrite app_length, map_length. lia. }
  set (h2 := h1 ++ map q_lpos l) in *.
  assert (G : forall (bs : list par1) (rs : list ref) (fs : list (ref -> xpar)), length rs = length bs ->
     Forall2 (fun (c : ref * par1) b => exists r, c = (r, b) /\ r < length h1 /\ h_get h1 r = q_pos b) (map2 (fun r a => (r, a)) rs bs) bs ->
     Forall2 (fun c b => exists r, c = f r b /\ r < length h2 /\ h_get h2 r = q_lpos b) fs bs ->
     Forall2 (new_par h2) (map2 (fun r a => a r) rs fs) bs).
  { induction bs as [|b bs IH]; intros [|r rs] fs Lr F1 F2; try discriminate; inversion F2 as [|c ? fs' ? (r2 & Ec & R1 & R2) F2']; subst; cbn [map2]; constructor.
    - cbn [map2] in F1. inversion F1 as [|? ? ? ? (r' & Er & R3 & R4) F1']; subst. injection Er as <-. unfold f, new_par. cbn [xp_pos xp_vel xp_fit xp_lpos xp_lfit].
      split; [unfold h2; rewrite app_length; lia|]. split; [unfold h2; rewrite get_app by auto; auto|]. auto 10.
    - cbn [map2] in F1. inversion F1; subst. apply IH; auto. }
  apply G; auto. rewrite seq_length; auto.
Qed.

(** ** The swarm's leader changes only for a better position. *)
Lemma q_eval_lead m fit : forall sw pos best sw' pb, q_eval m fit pos best sw = (sw', pb) -> pb = (pos, best) \/ (best < snd pb)%Q.
Proof.
  induction sw as [|a sw IH]; intros pos best sw' pb H; cbn [q_eval] in H; [injection H as <- <-; auto|].
  cbv zeta in H. destruct (Qltb (q_lfit a) (p1_score m fit (q_pos a)) && Qltb best (p1_score m fit (q_pos a))) eqn:B.
  - destruct (q_eval m fit (q_pos a) (p1_score m fit (q_pos a)) sw) as [r' pb'] eqn:E. injection H as <- <-.
    apply andb_true_iff in B. destruct B as (_ & B). apply Qltb_lt in B. right. destruct (IH _ _ _ _ E) as [->|H]; cbn [snd]; lra.
  - destruct (q_eval m fit pos best sw) as [r' pb'] eqn:E. injection H as <- <-. eapply IH; eauto.
Qed.
Lemma pso_mod_lead expf m fit p step steps drs w pos best swarm sw pb w' s3 :
  pso_mod expf m fit p step steps drs w pos best swarm = Some (sw, pb, w', s3) ->
  (pb = (pos, best) \/ (best < snd pb)%Q) /\
  w' = match p1_mech p with
       | Timew => if p1_proc p then w else ((9#10) - ((9#10) - (4#10)) * inject_Z (Z.of_nat step) / inject_Z (Z.of_nat steps))%Q
       | _ => w
       end.
Proof.
  unfold pso_mod. destruct (negb _); [discriminate|]. intros H. apply bind_Some in H. destruct H as (mv & _ & H).
  destruct (q_eval m fit pos best mv) as [sw0 pb0] eqn:E. injection H as _ <- <- _. split; auto. eapply q_eval_lead; eauto.
Qed.

(** ** DE. *)
Section Gen.
Context (expf : Q -> Q) (tau tau' : nat -> Q) (pwf : Q -> Q -> Q) (m : mode) (fit : list Q -> Q) (p : px_par).
Local Notation p1 := (px_1 p).
Local Notation ds := (p1_dims p1).
Local Notation npop := (p1_npop p1).
Local Notation g := (p1_score m fit).
Local Notation ok := (feasible ds).
Context (W : wf_dims ds) (D2 : 2 <= length ds) (N5 : 5 <= npop) (MU : 1 <= p1_mu p1 <= npop).

Lemma px_discrete : discrete_ok (p2_method (px_2 p)) (p2_dims (px_2 p)).
Proof. apply keeps_discrete. left. reflexivity. Qed.

Lemma px_de_ok drs h (x0 : list ref) : length x0 = npop -> Forall (fun r => r < length h) x0 -> Forall ok h ->
  exists h' pop s, px_de expf m fit p drs h x0 = Some (h', pop, s) /\ delivers m fit (px_2 p) npop h h' pop s /\ length s = 2 * npop /\
    forall x, In x s -> exists rq, In rq pop /\ (g x <= snd rq)%Q.
Proof.
  intros L R F. unfold px_de. rewrite L, Nat.eqb_refl. cbn [negb].
  destruct (hde_iter expf (px_2 p) W px_discrete N5 1 x0 drs L (seq 0 npop) h R F) as (h1 & vs & E & Lv & L1 & Rv & F1 & K1).
  { intros j Hj. apply in_seq in Hj. cbn. lia. }
  rewrite E. cbn [bind]. rewrite seq_length in Lv. specialize (K1 (or_introl eq_refl)).
  assert (R' : forall r, In r x0 -> r < length h1). { intros r Hr. rewrite Forall_forall in R. specialize (R r Hr). cbn beta in R. lia. }
  rewrite Forall_forall in Rv. cbv zeta.
  set (sc := fun r => px_score m fit (h_get h1 r)).
  set (pop := map2 (fun t v => if Qltb (sc t) (sc v) then (v, sc v) else (t, sc t)) x0 vs).
  change (map2 (fun t v => if Qltb (px_score m fit (h_get h1 t)) (px_score m fit (h_get h1 v)) then (v, px_score m fit (h_get h1 v)) else (t, px_score m fit (h_get h1 t))) x0 vs) with pop.
  assert (Pop : forall rq, In rq pop -> In (fst rq) (vs ++ x0) /\ snd rq = g (h_get h1 (fst rq)) /\ fst rq < length h1).
  { intros rq Hr. unfold pop in Hr. apply map2_In in Hr. destruct Hr as (a & b & Ha & Hb & ->). rewrite in_app_iff. destruct (Qltb _ _); cbn [fst snd]; auto. }
  assert (Lpop : length pop = npop) by (unfold pop; rewrite map2_length; lia).
  assert (Top : forall x, In x (map (h_get h1) (vs ++ x0)) -> exists rq, In rq pop /\ (g x <= snd rq)%Q).
  { intros x Hx. apply in_map_iff in Hx. destruct Hx as (r & <- & Hr). apply in_app_iff in Hr.
    assert (G : forall (l l' : list ref), length l' = length l -> In r l' \/ In r l ->
       exists rq, In rq (map2 (fun t v => if Qltb (sc t) (sc v) then (v, sc v) else (t, sc t)) l l') /\ (sc r <= snd rq)%Q).
    { induction l as [|a l IH]; intros [|b l'] Ll H; try discriminate; [destruct H as [[]|[]]|]. cbn [map2].
      assert (C : r = a \/ r = b \/ In r l' \/ In r l). { destruct H as [[H|H]|[H|H]]; auto. }
      destruct C as [->|[->|C]].
      - eexists. split; [left; reflexivity|]. destruct (Qltb (sc a) (sc b)) eqn:B; cbn [snd]; [apply Qltb_lt in B; lra|lra].
      - eexists. split; [left; reflexivity|]. destruct (Qltb (sc a) (sc b)) eqn:B; cbn [snd]; [lra|apply Qltb_false in B; lra].
      - destruct (IH l') as (rq & I1 & I2); auto. exists rq. split; [right; auto|auto]. }
    apply G; auto. rewrite Lv, L. reflexivity. }
  assert (Fs : Forall ok (map (h_get h1) (vs ++ x0))).
  { apply Forall_forall. intros x Hx. apply in_map_iff in Hx. destruct Hx as (r & <- & Hr). apply (get_feasible (px_2 p)); auto. apply in_app_iff in Hr. destruct Hr; auto. }
  assert (Ls : length (map (h_get h1) (vs ++ x0)) = 2 * npop) by (rewrite map_length, app_length; lia).
  destruct (p1_proc p1) eqn:P.
  - unfold h_new. rewrite map_length, Lpop. do 3 eexists. split; [reflexivity|]. split; [|split; [exact Ls|]].
    + set (vals := map (fun rq => h_get h1 (fst rq)) pop).
      assert (Lvals : length vals = npop) by (unfold vals; rewrite map_length; auto).
      assert (Q2 : Forall2 (fun x q => q = g x /\ In x (map (h_get h1) (vs ++ x0))) vals (map snd pop)).
      { unfold vals. clear - Pop. assert (X : forall l, incl l pop -> Forall2 (fun x q => q = g x /\ In x (map (h_get h1) (vs ++ x0))) (map (fun rq => h_get h1 (fst rq)) l) (map snd l)).
        { induction l as [|a l IH]; intros I; constructor; [|apply IH; intros z Hz; apply I; right; auto].
          destruct (Pop a (I a (or_introl eq_refl))) as (A & B & C). split; auto. apply in_map; auto. }
        apply X, incl_refl. }
      split; [rewrite combine_length, seq_length, map_length; lia|]. split; [rewrite app_length; lia|]. split.
      { apply Forall_app. split; auto. apply Forall_forall. intros x Hx. unfold vals in Hx. apply in_map_iff in Hx. destruct Hx as (rq & <- & Hr).
        apply (get_feasible (px_2 p)); auto. apply Pop; auto. }
      split; auto. split; [|intros _; apply old_app].
      pose proof (combine_Forall2 _ _ _ (new_Forall2 (px_2 p) N5 _ h _ _ Q2)) as G. rewrite Lvals in G.
      eapply Forall_impl; [|exact G]. cbn beta. intros [r q] (A & B & C). cbn [fst snd] in *. subst q. split; auto. split; [reflexivity|auto].
    + intros x Hx. destruct (Top x Hx) as (rq & I1 & I2).
      assert (X : forall (l : list (ref * Q)) (rs : list ref), length rs = length l -> In rq l -> exists r, In (r, snd rq) (combine rs (map snd l))).
      { induction l as [|a l IH]; intros [|r rs] H1 []; try discriminate; subst; [exists r; left; auto|]. destruct (IH rs) as (r' & Hr); auto. exists r'. right; auto. }
      destruct (X pop (seq (length h) npop)) as (r & Hr); auto; [rewrite seq_length; auto|]. exists (r, snd rq). auto.
  - do 3 eexists. split; [reflexivity|]. split; [|split; [exact Ls|exact Top]]. split; auto. split; auto. split; auto. split; auto. split; [|auto].
    apply Forall_forall. intros rq Hr. destruct (Pop rq Hr) as (A & B & C). assert (B' : (snd rq == g (h_get h1 (fst rq)))%Q) by (apply Qeq_of; exact B). split; [exact C|]. split; [exact B'|apply in_map; auto].
Qed.

(** ** Memory and replay. *)
Lemma px_update_ok h (mem : p2_mem) d (es : list xmem) (sw : list xpar) : ring mem -> store mem <> [] -> exists mem', px_update h mem d es sw = Some mem' /\ ring mem' /\ msize mem' = msize mem /\ store mem' <> [] /\
  length (store mem') <= length d + length es + length sw + length (store mem) /\
  (forall b, In b (store mem') -> In b (store mem) \/ In (sx b, obj b) d \/ (exists a, In a es /\ (sx b, obj b) = (xm_ind a, xm_fit a)) \/ (exists a, In a sw /\ (sx b, obj b) = (xp_pos a, xp_fit a))) /\
  (length d + length es + length sw + length (store mem) <= msize mem -> incl (store mem) (store mem') /\
     (forall rq, In rq d -> exists b, In b (store mem') /\ (obj b == snd rq)%Q) /\
     (forall a, In a es -> exists b, In b (store mem') /\ (obj b == xm_fit a)%Q) /\
     (forall a, In a sw -> exists b, In b (store mem') /\ (obj b == xp_fit a)%Q)).
Proof.
  intros R NE. unfold px_update.
  destruct (p2_add_ok h mem Lna d R) as (m1 & -> & R1 & S1 & I1 & E1 & L1 & K1). cbn [bind].
  destruct (p2_add_ok h m1 Lna (map (fun a => (xm_ind a, xm_fit a)) es) R1) as (m2 & -> & R2 & S2 & I2 & E2 & L2 & K2). cbn [bind].
  destruct (p2_add_ok h m2 Lna (map (fun a => (xp_pos a, xp_fit a)) sw) R2) as (m3 & -> & R3 & S3 & I3 & E3 & L3 & K3).
  exists m3. split; auto. split; auto. split; [congruence|]. split; [apply E3; left; apply E2; left; apply E1; left; exact NE|]. rewrite !map_length in *.
  split; [lia|]. split.
  - intros b Hb. destruct (I3 b Hb) as [H|H].
    { apply in_map_iff in H. destruct H as (a & E & Ha). right; right; right. exists a. auto. }
    destruct (I2 b H) as [H'|H'].
    { apply in_map_iff in H'. destruct H' as (a & E & Ha). right; right; left. exists a. auto. }
    destruct (I1 b H'); auto.
  - intros Rm. destruct K1 as (K1 & K1'); [lia|]. destruct K2 as (K2 & K2'); [lia|]. destruct K3 as (K3 & K3'); [lia|].
    split; [intros b Hb; auto|]. split; [|split].
    + intros rq Hr. destruct (K1' rq Hr) as (b & Hb & Eb). exists b. auto.
    + intros a Ha. destruct (K2' (xm_ind a, xm_fit a)) as (b & Hb & Eb); [apply in_map_iff; exists a; auto|]. exists b. auto.
    + intros a Ha. destruct (K3' (xp_pos a, xp_fit a)) as (b & Hb & Eb); [apply in_map_iff; exists a; auto|]. exists b. auto.
Qed.

Lemma px_replay_ok alpha (mem : p2_mem) k draw : store mem <> [] -> exists l, px_replay pwf alpha mem k draw = Some (sort_store mem, l) /\
  length l = k /\ forall r v, In (r, v) l -> exists b, In b (store mem) /\ sx b = r /\ obj b = v.
Proof.
  intros N. unfold px_replay.
  assert (Lp : 1 <= length (store mem)) by (destruct (store mem); [congruence|simpl; lia]).
  destruct (prior_spec (fun x => pwf x alpha) mem (map (fun i => draw i mod length (store mem)) (seq 0 k)) N) as (l & -> & L & I).
  { intros i Hi. apply in_map_iff in Hi. destruct Hi as (j & <- & _). apply Nat.mod_upper_bound. lia. }
  cbn [bind]. eexists. split; [reflexivity|]. split; [rewrite map_length, L, map_length, seq_length; auto|].
  intros x v H. apply in_map_iff in H. destruct H as (b & E & Hb). injection E as E1 E2. exists b. split; auto.
Qed.

Lemma px_members_spec str : forall l i, length (px_members p str i l) = length l /\
  forall a, In a (px_members p str i l) -> exists j q, In q l /\ a = px_member p str j q.
Proof.
  induction l as [|q l IH]; intros i; cbn [px_members].
  - split; auto. intros a [].
  - destruct (IH (S i)) as (I1 & I2). split; [simpl; auto|]. intros a [<-|Ha]; [exists i, q; split; [left|]; auto|].
    destruct (I2 a Ha) as (j & q' & H1 & H2). exists j, q'. split; [right|]; auto.
Qed.
Definition strat_ok (s : list Q) : Prop := length s = length ds /\ Forall (fun s => 0 < s /\ s <= 1 # 2)%Q s.
Lemma px_member_strat str i a : (forall k, 0 <= str i k /\ str i k <= 1)%Q -> strat_ok (xm_strat (px_member p str i a)).
Proof.
  intros H. destruct (smin_ok p1 D2) as (S1 & S2). cbn [xm_strat px_member].
  split; [rewrite map_length, seq_length; auto|]. apply Forall_forall. intros s Hs. apply in_map_iff in Hs. destruct Hs as (k & <- & _).
  destruct (H k). fold p1_smax. split; nra.
Qed.

Lemma px_resample_ok h alpha dr (mem : p2_mem) es sw d : store mem <> [] -> exists re rp rd,
  px_resample pwf p h alpha dr mem es sw d = Some (sort_store (sort_store (sort_store mem)), es ++ px_members p (x_str dr) 0 re, sw ++ map (px_particle h) rp, map fst d ++ map fst rd) /\
  length re = p1_mu p1 /\ length rp = npop - p1_mu p1 /\ length rd = npop - p1_mu p1 /\
  forall r v, In (r, v) (re ++ rp ++ rd) -> exists b, In b (store mem) /\ sx b = r /\ obj b = v.
Proof.
  intros NE. unfold px_resample.
  destruct (px_replay_ok alpha mem (p1_mu p1) (x_res dr) NE) as (re & -> & L1 & I1). cbn [bind].
  destruct (px_replay_ok alpha (sort_store mem) (npop - p1_mu p1) (x_rpso dr) (sort_nonempty _ NE)) as (rp & -> & L2 & I2). cbn [bind].
  destruct (px_replay_ok alpha (sort_store (sort_store mem)) (npop - p1_mu p1) (x_rde dr) (sort_nonempty _ (sort_nonempty _ NE))) as (rd & -> & L3 & I3). cbn [bind].
  do 3 eexists. split; [reflexivity|]. split; auto. split; auto. split; auto.
  intros r v H. rewrite !in_app_iff in H. destruct H as [H|[H|H]]; auto.
  - destruct (I2 r v H) as (b & Hb & E). apply (proj1 (sort_store_in mem b)) in Hb. exists b. auto.
  - destruct (I3 r v H) as (b & Hb & E). apply (proj1 (sort_store_in (sort_store mem) b)) in Hb. apply (proj1 (sort_store_in mem b)) in Hb. exists b. auto.
Qed.

(** ** One generation. *)
Context (steps size start : nat) (drs : nat -> px_draw) (DR : px_draws_ok drs) (RF : respects fit).

Lemma g_veq x y : Forall2 Qeq x y -> (g x == g y)%Q.
Proof. intros H. unfold p1_score. destruct m; simpl; rewrite (RF _ _ H); reflexivity. Qed.

(** A sample: a valid list whose numbers were evaluated before, with their value. *)
Definition ent (h : heap) (seen : list (list Q)) (r : ref) (v : Q) : Prop :=
  r < length h /\ (v == g (h_get h r))%Q /\ point_in (h_get h r) seen.
Lemma ent_mono h h' seen seen' r v : length h <= length h' -> old_kept h h' -> incl seen seen' -> ent h seen r v -> ent h' seen' r v.
Proof.
  intros L K I (A & B & C). split; [lia|]. specialize (K r A). split; [rewrite B; apply g_veq; auto|].
  eapply point_in_veq; [exact K|]. eapply point_in_mono; eauto.
Qed.
Definition mem_at (h : heap) (a : xmem) : Prop := xm_ind a < length h /\ strat_ok (xm_strat a).
Definition par_at (h : heap) (a : xpar) : Prop := xp_pos a < length h /\ length (xp_vel a) = length ds /\ xp_lpos a < length h.
Definition covered (mem : p2_mem) (seen : list (list Q)) : Prop := forall x, In x seen -> exists b, In b (store mem) /\ (g x <= obj b)%Q.

Record px_inv (k : nat) (st : px_state) : Prop := {
  jx_heap : Forall ok (y_heap st);
  jx_ring : ring (y_mem st); jx_size : msize (y_mem st) = size; jx_ne : store (y_mem st) <> [];
  jx_len : length (store (y_mem st)) <= start + k * px_survivors p;
  jx_store : forall b, In b (store (y_mem st)) -> ent (y_heap st) (y_seen st) (sx b) (obj b);
  jx_pop : Forall (mem_at (y_heap st)) (y_pop st); jx_pop2 : 2 <= length (y_pop st);
  jx_de : Forall (fun r => r < length (y_heap st)) (y_de st); jx_de2 : length (y_de st) = npop;
  jx_swarm : Forall (par_at (y_heap st)) (y_swarm st); jx_swarm2 : length (y_swarm st) = npop;
  jx_lead : ent (y_heap st) (y_seen st) (y_lead st) (y_lfit st);
  jx_seen : Forall ok (y_seen st); jx_count : length (y_seen st) = px_evals p start k;
  jx_hist : length (y_hist st) = k;
  jx_vals : forall i v, nth_error (y_hist st) i = Some v -> exists z, In z (firstn (px_evals p start (S i)) (y_seen st)) /\ (v == g z)%Q;
  jx_best : 1 <= k -> exists r y, y_best st = Some (r, y) /\ ent (y_heap st) (y_seen st) r y /\ nth_error (y_hist st) (k - 1) = Some y;
  jx_room : start + k * px_survivors p <= size -> covered (y_mem st) (y_seen st) /\
    forall i v, nth_error (y_hist st) i = Some v -> forall z, In z (firstn (px_evals p start (S i)) (y_seen st)) -> (g z <= v)%Q }.

Lemma mems_ok h pop : Forall ok h -> Forall (mem_at h) pop -> Forall (mem_ok p1) (map (get_mem h) pop).
Proof.
  intros F H. apply Forall_forall. intros a Ha. apply in_map_iff in Ha. destruct Ha as (b & <- & Hb). rewrite Forall_forall in H.
  destruct (H b Hb) as (A & B & C). split; [apply (get_feasible (px_2 p)); auto|]. split; auto.
Qed.
Lemma pars_ok h sw : Forall ok h -> Forall (par_at h) sw -> Forall (par_ok p1) (map (get_par h) sw).
Proof.
  intros F H. apply Forall_forall. intros a Ha. apply in_map_iff in Ha. destruct Ha as (b & <- & Hb). rewrite Forall_forall in H.
  destruct (H b Hb) as (A & B & C). split; [apply (get_feasible (px_2 p)); auto|]. split; auto. apply (get_feasible (px_2 p)); auto.
Qed.
Lemma par_at_mono h h' sw : length h <= length h' -> Forall (par_at h) sw -> Forall (par_at h') sw.
Proof. intros L H. eapply Forall_impl; [|exact H]. intros a (A & B & C). split; [lia|]. split; auto. lia. Qed.

Lemma px_gen_ok k st st' : px_inv k st -> px_gen expf tau tau' pwf m fit p steps drs k st = Some st' ->
  px_inv (S k) st' /\ y_step st' = y_step st + npop /\
  y_alpha st' = linear_anneal (y_step st + npop) steps (p1_alpha0 p1) (p1_alpha1 p1) /\
  y_alphas st' = y_alphas st ++ [y_alpha st] /\ y_ws st' = y_ws st ++ [y_w st] /\ (exists new, y_seen st' = y_seen st ++ new) /\
  y_w st' = match p1_mech p1 with
            | Timew => if p1_proc p1 then y_w st else ((9#10) - ((9#10) - (4#10)) * inject_Z (Z.of_nat (y_step st)) / inject_Z (Z.of_nat steps))%Q
            | _ => y_w st
            end.
Proof.
  intros I H. unfold px_gen in H. cbv zeta in H.
  apply bind_Some in H. destruct H as ([es s1] & Ees & H). destruct (new_mems (y_heap st) es) as [h1 xes] eqn:Ex.
  apply bind_Some in H. destruct H as ([[h2 dp] s2] & Ede & H).
  apply bind_Some in H. destruct H as ([[[sw pb] w] s3] & Epso & H). destruct (new_pars h2 sw) as [h3 xsw] eqn:Ep.
  destruct (if Qltb (y_lfit st) (snd pb) then (h3 ++ [fst pb], length h3) else (h3, y_lead st)) as [h4 lead] eqn:El.
  apply bind_Some in H. destruct H as (mem1 & Eup & H). apply bind_Some in H. destruct H as ([[[mem2 pop'] swarm'] de'] & Ere & H).
  destruct (sample_greedy mem2 1) as [mem3 top] eqn:Eg.
  apply bind_Some in H. destruct H as (b & Hb & H).
  destruct (pso_mod_lead _ _ _ _ _ _ _ _ _ _ _ _ _ _ _ Epso) as (PL & EW).
  pose proof (jx_heap _ _ I) as F0.
  destruct (es_mod_ok expf tau tau' m fit p1 W D2 _ _ _ _ (mems_ok _ _ F0 (jx_pop _ _ I)) (proj2 MU) Ees) as (A1 & A2 & A3 & A4 & A5 & A6).
  destruct (new_mems_ok _ _ _ _ Ex) as (E1 & X1).
  assert (L01 : length (y_heap st) <= length h1) by (rewrite E1, app_length; lia).
  assert (K01 : old_kept (y_heap st) h1) by (rewrite E1; apply old_app).
  assert (F1 : Forall ok h1).
  { rewrite E1. apply Forall_app. split; auto. apply Forall_forall. intros x Hx. apply in_map_iff in Hx. destruct Hx as (a & <- & Ha).
    rewrite Forall_forall in A4. apply (A4 a Ha). }
  assert (Rd : Forall (fun r => r < length h1) (y_de st)) by (eapply Forall_impl; [|exact (jx_de _ _ I)]; cbn beta; intros; lia).
  destruct (px_de_ok (x_de (drs k)) h1 (y_de st) (jx_de2 _ _ I) Rd F1) as (h2' & dp' & s2' & Ede' & (B1 & B2 & B3 & B4 & B5 & B6) & B7 & B8).
  rewrite Ede in Ede'. injection Ede' as <- <- <-. specialize (B6 (or_intror (or_introl eq_refl))). cbn in B3, B4.
  assert (K02 : old_kept (y_heap st) h2) by (eapply old_trans; eauto).
  assert (L02 : length (y_heap st) <= length h2) by lia.
  pose proof (ent_mono _ h2 _ (y_seen st) _ _ L02 K02 (incl_refl _) (jx_lead _ _ I)) as (P1 & P2 & P3).
  destruct (pso_mod_ok expf m fit p1 W _ _ _ _ _ _ _ _ _ _ _ (pars_ok _ _ B3 (par_at_mono _ h2 _ L02 (jx_swarm _ _ I)))
    (get_feasible (px_2 p) _ _ B3 P1) P2 (proj1 MU) (proj2 MU) Epso) as (C1 & C2 & C3 & C4 & C5 & C6 & C7 & C8 & C9).
  destruct (new_pars_ok _ _ _ _ Ep) as (E3 & X3).
  assert (L23 : length h2 <= length h3) by (rewrite E3, app_length; lia).
  assert (K23 : old_kept h2 h3) by (rewrite E3; apply old_app).
  assert (F3 : Forall ok h3).
  { rewrite E3, !Forall_app. split; auto. rewrite !Forall_map. split; (eapply Forall_impl; [|exact C4]); intros a (Q1 & Q2 & Q3); auto. }
  set (seen' := y_seen st ++ s1 ++ s2 ++ s3) in *.
  assert (IO : incl (y_seen st) seen') by (intros z Hz; apply in_app_iff; auto).
  assert (I1s : incl s1 seen') by (intros z Hz; unfold seen'; rewrite !in_app_iff; auto).
  assert (I2s : incl s2 seen') by (intros z Hz; unfold seen'; rewrite !in_app_iff; auto).
  assert (I3s : incl s3 seen') by (intros z Hz; unfold seen'; rewrite !in_app_iff; auto).
  assert (LD : length h3 <= length h4 /\ old_kept h3 h4 /\ Forall ok h4 /\ ent h4 seen' lead (snd pb)).
  { assert (PI : point_in (fst pb) seen').
    { destruct C8 as [C8|C8]; [rewrite <- C8; exact (point_in_mono _ _ _ IO P3)|apply point_in_self; auto]. }
    destruct (Qltb (y_lfit st) (snd pb)) eqn:Eq; injection El as <- <-.
    - split; [rewrite app_length; lia|]. split; [apply old_app|]. split; [apply Forall_app; split; auto|].
      unfold ent. assert (h_get (h3 ++ [fst pb]) (length h3) = fst pb) as ->. { unfold h_get. rewrite app_nth2, Nat.sub_diag by lia. reflexivity. }
      split; [rewrite app_length; simpl; lia|]. auto.
    - split; auto. split; [apply old_refl|]. split; auto. apply Qltb_false in Eq. destruct PL as [->|PL]; [|lra]. cbn [snd] in *.
      eapply ent_mono; [exact L23|exact K23|exact IO|]. split; auto. }
  clear El. destruct LD as (L34 & K34 & F4 & EL).
  assert (K24 : old_kept h2 h4) by (eapply old_trans; eauto).
  assert (K14 : old_kept h1 h4) by (eapply old_trans; eauto).
  assert (K04 : old_kept (y_heap st) h4) by (eapply old_trans; eauto).
  assert (EES : forall a, In a xes -> ent h4 seen' (xm_ind a) (xm_fit a) /\ strat_ok (xm_strat a)).
  { intros a Ha. destruct (Forall2_in_l _ _ _ X1 a Ha) as (c & Hc & (Q1 & Q2 & Q3 & Q4)).
    rewrite Forall_forall in A5, A4. destruct (A5 c Hc) as (R1 & R2). split.
    - eapply (ent_mono h1 h4 s1 seen'); auto; [lia|]. split; auto. rewrite Q2, Q4, R2. split; [reflexivity|apply point_in_self; auto].
    - rewrite Q3. apply (A4 c Hc). }
  assert (EDE : forall rq, In rq dp -> ent h4 seen' (fst rq) (snd rq)).
  { intros rq Hr. rewrite Forall_forall in B5. destruct (B5 rq Hr) as (Q1 & Q2 & Q3). eapply (ent_mono h2 h4 s2 seen'); auto; [lia|].
    split; auto. split; [exact Q2|apply point_in_self; auto]. }
  assert (ESW : forall a, In a xsw -> ent h4 seen' (xp_pos a) (xp_fit a) /\ par_at h4 a).
  { intros a Ha. destruct (Forall2_in_l _ _ _ X3 a Ha) as (c & Hc & (Q1 & Q2 & Q3 & Q4 & Q5 & Q6 & Q7)).
    rewrite Forall_forall in C5, C4. destruct (C5 c Hc) as (R1 & R2). split.
    - eapply (ent_mono h3 h4 s3 seen'); auto. split; auto. rewrite Q2, Q4, R2. split; [reflexivity|apply point_in_self; auto].
    - destruct (C4 c Hc) as (T1 & T2 & T3). split; [lia|]. split; [rewrite Q3; auto|lia]. }
  set (d := p2_select dp (p1_mu p1)) in *.
  assert (Ld : length d = p1_mu p1) by (unfold d; rewrite select_len; cbn in B1; lia).
  assert (Lxe : length xes = p1_mu p1) by (rewrite (Forall2_len _ _ _ X1); auto).
  assert (Lxs : length xsw = p1_mu p1) by (rewrite (Forall2_len _ _ _ X3); auto).
  destruct (px_update_ok h4 (y_mem st) d xes xsw (jx_ring _ _ I) (jx_ne _ _ I)) as (mem1' & Eup' & R2 & S2 & NE2 & L2 & I2 & K2). rewrite Eup in Eup'. injection Eup' as <-.
  destruct (px_resample_ok h4 (y_alpha st) (drs k) mem1 xes xsw d NE2) as (re & rp & rd & Ere' & G1 & G2 & G3 & G4).
  rewrite Ere in Ere'. injection Ere' as -> -> -> ->.
  set (memr := sort_store (sort_store (sort_store mem1))) in *.
  assert (IN2 : forall q, In q (store memr) <-> In q (store mem1)) by (intros q; unfold memr; rewrite !sort_store_in; tauto).
  assert (NE3 : store memr <> []) by (unfold memr; do 3 apply sort_nonempty; auto).
  destruct (greedy_spec memr NE3) as (b' & T1 & T2 & T3 & T4). rewrite Eg in T1, T2. cbn [fst snd] in T1, T2.
  rewrite Hb in T1. injection T1 as <-. subst mem3.
  injection H as <-. cbn [y_step y_alpha y_alphas y_ws y_w y_seen]. fold seen'.
  split; [|split; [reflexivity|split; [reflexivity|split; [reflexivity|split; [reflexivity|split; [eexists; reflexivity|exact EW]]]]]].
  assert (Fn : Forall ok (s1 ++ s2 ++ s3)) by (rewrite !Forall_app; auto).
  assert (Ln : length (s1 ++ s2 ++ s3) = 4 * npop) by (rewrite !app_length; lia).
  assert (OK1 : forall q, In q (store mem1) -> ent h4 seen' (sx q) (obj q)).
  { intros q Hq. destruct (I2 q Hq) as [H|[H|[(a & Ha & H)|(a & Ha & H)]]].
    - eapply ent_mono; [| | |apply (jx_store _ _ I); exact H]; auto; lia.
    - apply (EDE (sx q, obj q)). unfold d in H. apply select_in in H. auto.
    - injection H as -> ->. apply (EES a Ha).
    - injection H as -> ->. apply (ESW a Ha). }
  pose proof (jx_len _ _ I) as IL0.
  assert (SV : px_survivors p = length d + length xes + length xsw) by (unfold px_survivors; lia).
  assert (EC : px_evals p start (S k) = length seen').
  { unfold seen'. rewrite app_length, (jx_count _ _ I), Ln. unfold px_evals. lia. }
  assert (BI : In b (store mem1)) by (apply IN2; auto).
  assert (HK : forall i v, nth_error (y_hist st ++ [obj b]) i = Some v -> (i < k /\ nth_error (y_hist st) i = Some v) \/ (i = k /\ v = obj b)).
  { intros i v Hi. pose proof (jx_hist _ _ I) as HL. destruct (Nat.lt_ge_cases i k) as [C|C].
    - left. split; auto. rewrite nth_error_app1 in Hi by lia. auto.
    - right. rewrite nth_error_app2 in Hi by lia. rewrite HL in Hi.
      destruct (i - k) as [|j] eqn:Ej; [|destruct j; discriminate]. injection Hi as <-. split; [lia|auto]. }
  assert (OLD : forall i, i < k -> firstn (px_evals p start (S i)) seen' = firstn (px_evals p start (S i)) (y_seen st)).
  { intros i Hi. unfold seen'. apply firstn_pre. rewrite (jx_count _ _ I). unfold px_evals. nia. }
  assert (RP : forall r v, In (r, v) (re ++ rp ++ rd) -> ent h4 seen' r v).
  { intros r v Hr. destruct (G4 r v Hr) as (q & Hq & <- & <-). auto. }
  constructor; cbn [y_heap y_mem y_pop y_de y_swarm y_lead y_lfit y_best y_hist y_seen].
  - exact F4.
  - apply ring_sort. unfold memr. do 3 apply ring_sort. auto.
  - change (msize mem1 = size). rewrite S2. apply (jx_size _ _ I).
  - apply sort_nonempty; auto.
  - rewrite sort_store_len. unfold memr. rewrite !sort_store_len. lia.
  - intros q Hq. apply OK1, IN2. rewrite sort_store_in in Hq. exact Hq.
  - apply Forall_app. split; apply Forall_forall; intros a Ha.
    + destruct (EES a Ha) as ((Q1 & _) & Q2). split; auto.
    + destruct (px_members_spec (x_str (drs k)) re 0) as (_ & Ms). destruct (Ms a Ha) as (j & [r v] & Hq & ->).
      split; [|apply px_member_strat; intros i; apply DR]. cbn [px_member xm_ind fst]. apply (RP r v). apply in_app_iff; auto.
  - rewrite app_length. destruct (px_members_spec (x_str (drs k)) re 0) as (Lm & _). rewrite Lm. lia.
  - apply Forall_app. split; apply Forall_forall; intros r Hr; apply in_map_iff in Hr; destruct Hr as ([r' v] & <- & Hr); cbn [fst].
    + unfold d in Hr. apply select_in in Hr. apply (EDE _ Hr).
    + apply (RP r' v). rewrite !in_app_iff; auto.
  - rewrite app_length, !map_length. lia.
  - apply Forall_app. split; apply Forall_forall; intros a Ha.
    + apply (ESW a Ha).
    + apply in_map_iff in Ha. destruct Ha as ([r v] & <- & Hr). assert (Q : ent h4 seen' r v) by (apply RP; rewrite !in_app_iff; auto).
      destruct Q as (Q1 & _). split; [exact Q1|]. split; [|exact Q1]. cbn [px_particle xp_vel fst]. rewrite map_length. apply feasible_length, (get_feasible (px_2 p)); auto.
  - rewrite app_length, map_length. lia.
  - exact EL.
  - apply Forall_app. split; auto. apply (jx_seen _ _ I).
  - symmetry. exact EC.
  - rewrite app_length, (jx_hist _ _ I). simpl. lia.
  - intros i v Hi. destruct (HK i v Hi) as [(C & Hi')|(-> & ->)].
    + rewrite (OLD i C). apply (jx_vals _ _ I); auto.
    + destruct (OK1 b BI) as (_ & Q2 & (z & Q3 & Q4)). exists z. rewrite EC, firstn_all. split; auto. rewrite Q2. symmetry. apply g_veq; auto.
  - intros _. exists (sx b), (obj b). split; auto. split; [auto|]. replace (S k - 1) with (length (y_hist st)) by (rewrite (jx_hist _ _ I); lia).
    rewrite nth_error_app2, Nat.sub_diag by lia. reflexivity.
  - intros Rm. destruct (jx_room _ _ I) as (V1 & V2); [lia|].
    destruct K2 as (K2a & K2b & K2c & K2d). { rewrite (jx_size _ _ I). lia. }
    assert (CV : covered mem1 seen').
    { intros z Hz. unfold seen' in Hz. rewrite !in_app_iff in Hz. destruct Hz as [Hz|[Hz|[Hz|Hz]]].
      - destruct (V1 z Hz) as (q & Hq & Lq). exists q. split; auto.
      - destruct (A6 (proj1 MU) z Hz) as (a & Ha & La). destruct (Forall2_in_r _ _ _ X1 a Ha) as (c & Hc & (_ & _ & _ & Q4)).
        destruct (K2c c Hc) as (q & Hq & Eq). exists q. split; auto. rewrite Eq, Q4. auto.
      - destruct (B8 z Hz) as (rq & Hr & Lr). destruct (select_best dp (p1_mu p1) rq (proj1 MU) Hr) as (rb & Hrb & Lb).
        destruct (K2b rb Hrb) as (q & Hq & Eq). exists q. split; auto. rewrite Eq. lra.
      - destruct (C9 z Hz) as (a & Ha & La). destruct (Forall2_in_r _ _ _ X3 a Ha) as (c & Hc & (_ & _ & _ & Q4 & _)).
        destruct (K2d c Hc) as (q & Hq & Eq). exists q. split; auto. rewrite Eq, Q4. auto. }
    split.
    + intros z Hz. destruct (CV z Hz) as (q & Hq & Lq). exists q. split; auto. apply sort_store_in, IN2. auto.
    + intros i v Hi. destruct (HK i v Hi) as [(C & Hi')|(-> & ->)].
      * rewrite (OLD i C). apply V2; auto.
      * intros z Hz. apply in_firstn in Hz. destruct (CV z Hz) as (q & Hq & Lq). eapply Qle_trans; [exact Lq|]. apply T4. apply IN2. auto.
Qed.

Lemma px_gen_total k st : (forall q, 0 < expf q)%Q -> p1_mech p1 <> Globw ->
  px_inv k st -> exists st', px_gen expf tau tau' pwf m fit p steps drs k st = Some st'.
Proof.
  intros He HG I. unfold px_gen. cbv zeta. pose proof (jx_heap _ _ I) as F0.
  destruct (es_mod_total expf tau tau' m fit p1 W D2 (x_es (drs k)) (map (get_mem (y_heap st)) (y_pop st)) He ltac:(rewrite map_length; apply (jx_pop2 _ _ I)) (mems_ok _ _ F0 (jx_pop _ _ I))) as (es & s1 & Ees).
  rewrite Ees. cbn [bind].
  destruct (es_mod_ok expf tau tau' m fit p1 W D2 _ _ _ _ (mems_ok _ _ F0 (jx_pop _ _ I)) (proj2 MU) Ees) as (A1 & A2 & A3 & A4 & A5 & A6).
  destruct (new_mems (y_heap st) es) as [h1 xes] eqn:Ex. destruct (new_mems_ok _ _ _ _ Ex) as (E1 & X1).
  assert (L01 : length (y_heap st) <= length h1) by (rewrite E1, app_length; lia).
  assert (K01 : old_kept (y_heap st) h1) by (rewrite E1; apply old_app).
  assert (F1 : Forall ok h1).
  { rewrite E1. apply Forall_app. split; auto. apply Forall_forall. intros x Hx. apply in_map_iff in Hx. destruct Hx as (a & <- & Ha).
    rewrite Forall_forall in A4. apply (A4 a Ha). }
  assert (Rd : Forall (fun r => r < length h1) (y_de st)) by (eapply Forall_impl; [|exact (jx_de _ _ I)]; cbn beta; intros; lia).
  destruct (px_de_ok (x_de (drs k)) h1 (y_de st) (jx_de2 _ _ I) Rd F1) as (h2 & dp & s2 & -> & (B1 & B2 & B3 & B4 & B5 & B6) & B7 & B8). cbn [bind].
  specialize (B6 (or_intror (or_introl eq_refl))). cbn in B3, B4.
  assert (K02 : old_kept (y_heap st) h2) by (eapply old_trans; eauto).
  assert (L02 : length (y_heap st) <= length h2) by lia.
  pose proof (ent_mono _ h2 _ (y_seen st) _ _ L02 K02 (incl_refl _) (jx_lead _ _ I)) as (P1 & P2 & P3).
  destruct (pso_mod_total expf m fit p1 (y_step st) steps (x_pso (drs k)) (y_w st) (h_get h2 (y_lead st)) (y_lfit st) (map (get_par h2) (y_swarm st))
    (pars_ok _ _ B3 (par_at_mono _ h2 _ L02 (jx_swarm _ _ I))) (get_feasible (px_2 p) _ _ B3 P1) ltac:(rewrite map_length; apply (jx_swarm2 _ _ I)) (fun e => False_ind _ (HG e)))
    as (sw & pb & w & s3 & ->). cbn [bind].
  destruct (new_pars h2 sw) as [h3 xsw].
  destruct (if Qltb (y_lfit st) (snd pb) then (h3 ++ [fst pb], length h3) else (h3, y_lead st)) as [h4 lead].
  destruct (px_update_ok h4 (y_mem st) (p2_select dp (p1_mu p1)) xes xsw (jx_ring _ _ I) (jx_ne _ _ I)) as (mem1 & -> & R2 & S2 & NE2 & _). cbn [bind].
  destruct (px_resample_ok h4 (y_alpha st) (drs k) mem1 xes xsw (p2_select dp (p1_mu p1)) NE2) as (re & rp & rd & -> & _). cbn [bind].
  destruct (greedy_spec (sort_store (sort_store (sort_store mem1))) ltac:(do 3 apply sort_nonempty; auto)) as (b & T1 & T2 & _).
  destruct (sample_greedy _ 1) as [mem4 top]. cbn [fst snd] in *. rewrite T1. cbn [bind]. eauto.
Qed.
End Gen.
