(** Proofs about Simulated Annealing. *)
From Coq Require Import List Arith ZArith QArith Qabs Bool Lia Lqa.
From Verif Require Import Base BaseFacts Space_Model Space_Spec Space_Facts Opt_Model Opt_Spec Opt_Facts Opt_Facts2 PSO_Proofs SA_Model SA_Spec.
Import ListNotations.
Open Scope nat_scope.

(** ** The built-in move. *)
Lemma resample_spec d x su sk : forall todo t s, resample d x su sk t todo = Some s ->
  exists t', t <= t' /\ s = gen_coord d (su t') (sk t') /\ (~ (d_lo d == d_hi d)%Q -> ~ (x == s)%Q).
Proof.
  induction todo as [|n IH]; intros t s H; cbn [resample] in H; [discriminate|]. cbv zeta in H.
  destruct (Qeq_bool x (gen_coord d (su t) (sk t))) eqn:A; cbn [andb] in H.
  - destruct (Qeq_bool (d_lo d) (d_hi d)) eqn:B; cbn [negb] in H.
    + inversion H; subst. exists t. split; [lia|]. split; auto. intros N. apply Qeq_bool_iff in B. contradiction.
    + apply IH in H. destruct H as (t' & ? & ? & ?). exists t'. split; [lia|auto].
  - inversion H; subst. exists t. split; [lia|]. split; auto. intros _ E. apply Qeq_bool_iff in E. congruence.
Qed.
Lemma resample_total d x su sk : forall todo t t', t <= t' -> t' < t + todo ->
  ((d_lo d == d_hi d)%Q \/ ~ (x == gen_coord d (su t') (sk t'))%Q) -> exists s, resample d x su sk t todo = Some s.
Proof.
  induction todo as [|n IH]; intros t t' L1 L2 H; [lia|]. cbn [resample]. cbv zeta.
  destruct (Qeq_bool x (gen_coord d (su t) (sk t))) eqn:A; cbn [andb]; [|eauto].
  destruct (Qeq_bool (d_lo d) (d_hi d)) eqn:B; cbn [negb]; [eauto|].
  destruct (Nat.eq_dec t t') as [<-|N].
  - exfalso. destruct H as [H|H].
    + apply Qeq_bool_iff in H. congruence.
    + apply H. apply Qeq_bool_iff. auto.
  - apply (IH (S t) t'); auto; lia.
Qed.


Lemma def_move_spec fuel chi dr : good_draw dr -> forall ds i x y, wf_dims ds -> feasible ds x ->
  def_move fuel chi dr i ds x = Some y ->
  feasible ds y /\
  forall k d a b, nth_error ds k = Some d -> nth_error x k = Some a -> nth_error y k = Some b ->
    ((chi <= sd_u dr (i + k))%Q -> b = a) /\
    ((sd_u dr (i + k) < chi)%Q -> ~ (d_lo d == d_hi d)%Q -> ~ (b == a)%Q).
Proof.
  intros G. induction ds as [|d ds IH]; intros i x y W F H; cbn [def_move] in H.
  - inversion F; subst. inversion H; subst. split; [constructor|]. intros [|k]; discriminate.
  - inversion F as [|? a ? x' Fa Fx]; subst. apply bind_Some in H. destruct H as (b & Hb & H).
    apply bind_Some in H. destruct H as (r & Hr & H). inversion H; subst. inversion W as [|? ? [W1 W2] W']; subst.
    destruct (IH _ _ _ W' Fx Hr) as [I1 I2]. split.
    + constructor; auto. destruct (Qltb _ _); [|inversion Hb; subst; auto].
      apply resample_spec in Hb. destruct Hb as (t' & _ & -> & _). apply gen_coord_ok; auto; apply G.
    + intros [|k] d0 a0 b0 E1 E2 E3; cbn [nth_error] in *.
      * inversion E1; inversion E2; inversion E3; subst. rewrite Nat.add_0_r.
        destruct (Qltb (sd_u dr i) chi) eqn:U; qprop; split; intros.
        -- lra.
        -- apply resample_spec in Hb. destruct Hb as (t' & _ & _ & Hd). intros E. apply Hd; auto. symmetry; auto.
        -- inversion Hb; auto.
        -- lra.
      * replace (i + S k) with (S i + k) by lia. eapply I2; eauto.
Qed.
Lemma def_move_total fuel chi dr : forall ds i x, feasible ds x ->
  (forall k d a, nth_error ds k = Some d -> nth_error x k = Some a ->
     exists t, t < fuel /\ ((d_lo d == d_hi d)%Q \/ ~ (a == gen_coord d (sd_su dr (i + k) t) (sd_sk dr (i + k) t))%Q)) ->
  exists y, def_move fuel chi dr i ds x = Some y.
Proof.
  induction ds as [|d ds IH]; intros i x F H; cbn [def_move]; eauto.
  inversion F as [|? a ? x' Fa Fx]; subst.
  assert (exists b, (if Qltb (sd_u dr i) chi then resample d a (sd_su dr i) (sd_sk dr i) 0 fuel else Some a) = Some b) as (b & ->).
  { destruct (Qltb _ _); eauto. destruct (H 0 d a eq_refl eq_refl) as (t & Ht & Hd). rewrite Nat.add_0_r in Hd.
    apply (resample_total _ _ _ _ _ 0 t); auto; lia. }
  cbn [bind]. destruct (IH (S i) x' Fx) as (y & ->); [|cbn [bind]; eauto].
  intros k d0 a0 E1 E2. destruct (H (S k) d0 a0 E1 E2) as (t & Ht & Hd). exists t. split; auto.
  replace (S i + k) with (i + S k) by lia. auto.
Qed.

(** ** Step ranges. *)
Lemma sa_ranges_spec p step0 : 1 <= sa_npop p -> forall n j kmin, 1 <= j -> 1 <= step0 -> kmin = step0 + (j - 1) * sa_npop p ->
  flat_map (fun r => seq (fst r) (S (snd r) - fst r)) (sa_ranges p step0 kmin j n) = seq kmin (n * sa_npop p) /\
  Forall (fun r => S (snd r) - fst r = sa_npop p) (sa_ranges p step0 kmin j n) /\ length (sa_ranges p step0 kmin j n) = n.
Proof.
  intros HP. induction n as [|n IH]; intros j kmin J S0 K; cbn [sa_ranges flat_map].
  - repeat split; auto.
  - cbv zeta. cbn [fst snd].
    assert (E : step0 + j * sa_npop p - 1 + 1 = step0 + (S j - 1) * sa_npop p) by (replace (S j - 1) with j by lia; lia).
    destruct (IH (S j) (step0 + j * sa_npop p - 1 + 1) ltac:(lia) S0 E) as (I1 & I2 & I3).
    assert (L : S (step0 + j * sa_npop p - 1) - kmin = sa_npop p).
    { subst kmin. destruct j as [|j]; [lia|]. replace (S j - 1) with j by lia. cbn [Nat.mul]. lia. }
    split; [|split].
    + cbn [flat_map fst snd]. rewrite I1, L. cbn [Nat.mul]. rewrite seq_app. f_equal. f_equal. lia.
    + constructor; auto.
    + simpl. lia.
Qed.

Section SA.
Context (expf rnd1 : Q -> Q) (m : mode) (fit : list Q -> Q) (p : sa_par).
Context (custom : option (nat -> nat -> nat -> list Q -> list Q)) (fuel : nat).
Context (W : wf_dims (sa_dims p)).
Let g := fun x => as_max m (fit x).

Local Notation sa_ok := (SA_Spec.sa_ok p custom).
Local Notation moves_ok := (SA_Spec.moves_ok p custom).
Local Notation varied := (SA_Spec.varied p fuel).

Lemma sa_ok_inside x : sa_ok x -> inside (dim_bounds (sa_dims p)) x.
Proof. unfold SA_Spec.sa_ok. destruct custom; auto. apply feasible_inside. Qed.
Lemma sa_arg_id x : sa_ok x -> sa_arg p x = x.
Proof. intros H. unfold sa_arg. apply (clip_id (sa_dims p)); auto. apply sa_ok_inside; auto. Qed.
Lemma sa_score_g x : sa_ok x -> sa_score m fit p x = g x.
Proof. intros H. unfold sa_score. rewrite sa_arg_id; auto. Qed.

Definition chain_ok (x0 : list Q) (n : nat) (c : chain) : Prop :=
  sa_ok (ch_x c) /\ (ch_E c == g (ch_x c))%Q /\ In (ch_x c) (x0 :: ch_log c) /\
  max_of g (x0 :: ch_log c) (ch_bx c) (ch_bE c) /\ Forall sa_ok (ch_log c) /\
  ch_acc c + ch_rej c = n /\ ch_imp c <= ch_acc c /\ length (ch_log c) = n.

Lemma sa_step_ok gi j k drs x0 n c c' : moves_ok drs -> chain_ok x0 n c ->
  sa_step expf m fit p custom fuel gi j k (drs gi j k) c = Some c' -> chain_ok x0 (S n) c'.
Proof.
  intros HM (A1 & A2 & A3 & A4 & A5 & A6 & A7 & A8) H. unfold sa_step in H.
  apply bind_Some in H. destruct H as (y & Hy & H).
  assert (OK : sa_ok (clip_vec (sa_bounds p) y)).
  { unfold SA_Spec.sa_ok, SA_Spec.moves_ok in *. change (sa_bounds p) with (dim_bounds (sa_dims p)). destruct custom as [f|].
    - inversion Hy; subst. apply clip_inside; auto. apply HM.
      rewrite <- (dim_bounds_length (sa_dims p)). apply inside_length. auto.
    - apply def_move_spec in Hy; auto. destruct Hy as [Hy _]. rewrite clip_id; auto. apply feasible_inside; auto. }
  set (x := clip_vec (sa_bounds p) y) in *. clearbody x. cbv zeta in H. rewrite sa_score_g, sa_arg_id in H by auto.
  destruct (max_of_app g (x0 :: ch_log c) [x] _ _ x (g x) A4 (max_of_single g x)) as [M1 M2].
  assert (FO : Forall sa_ok (ch_log c ++ [x])) by (apply Forall_app; auto).
  assert (LL : length (ch_log c ++ [x]) = S n) by (rewrite app_length; simpl; lia).
  assert (LA : In x (x0 :: ch_log c ++ [x])) by (right; apply in_app_iff; simpl; auto).
  assert (LB : In (ch_x c) (x0 :: ch_log c ++ [x])) by (destruct A3 as [?|?]; [left|right; apply in_app_iff]; auto).
  assert (BE : (ch_E c <= ch_bE c)%Q).
  { rewrite A2. apply A4. auto. }
  destruct (Qltb 0 (g x - ch_E c)) eqn:D1; qprop.
  - destruct (Qltb (ch_bE c) (g x)) eqn:D2; qprop; inversion H; subst c'; unfold chain_ok; cbn [ch_x ch_E ch_acc ch_rej ch_imp ch_bx ch_bE ch_log].
    + split; [auto|]. split; [reflexivity|]. split; [auto|]. split; [apply M2; lra|]. repeat (split; [auto; lia|]). auto.
    + split; [auto|]. split; [reflexivity|]. split; [auto|]. split; [apply M1; lra|]. repeat (split; [auto; lia|]). auto.
  - assert (MM : max_of g (x0 :: ch_log c ++ [x]) (ch_bx c) (ch_bE c)) by (apply M1; lra).
    destruct (Qle_bool _ _); inversion H; subst c'; unfold chain_ok; cbn [ch_x ch_E ch_acc ch_rej ch_imp ch_bx ch_bE ch_log].
    + split; [auto|]. split; [reflexivity|]. split; [auto|]. split; [auto|]. repeat (split; [auto; lia|]). auto.
    + split; [auto|]. split; [auto|]. split; [auto|]. split; [auto|]. repeat (split; [auto; lia|]). auto.
Qed.

Lemma sa_chain_ok drs gi j kmin kmax x0 E0 c : moves_ok drs -> sa_ok x0 -> (E0 == g x0)%Q ->
  sa_chain expf m fit p custom fuel drs gi j kmin kmax x0 E0 = Some c -> chain_ok x0 (S kmax - kmin) c.
Proof.
  intros HM O HE H. unfold sa_chain in H.
  assert (G : forall todo k n c0 c, chain_ok x0 n c0 ->
    gens (fun k c => sa_step expf m fit p custom fuel gi j k (drs gi j k) c) k todo c0 = Some c -> chain_ok x0 (todo + n) c).
  { induction todo as [|t IH]; intros k n c0 c1 I E; cbn [gens] in E; [inversion E; subst; auto|].
    apply bind_Some in E. destruct E as (c2 & E2 & E). apply (sa_step_ok _ _ _ _ x0 n) in E2; auto.
    apply (IH _ (S n)) in E; auto. replace (S t + n) with (t + S n) by lia. auto. }
  apply (G _ _ 0) in H; [rewrite Nat.add_0_r in H; auto|].
  unfold chain_ok; cbn [ch_x ch_E ch_acc ch_rej ch_imp ch_bx ch_bE ch_log].
  split; [auto|]. split; [auto|]. split; [left; auto|]. split; [|repeat (split; [auto|]); auto].
  split; [left; auto|]. split; [auto|]. intros z [<-|[]]. lra.
Qed.

Lemma sa_chains_ok drs gi : moves_ok drs -> forall rs j xs es cs, Forall sa_ok xs ->
  Forall2 (fun x e => e == g x)%Q xs es ->
  Forall (fun r => S (snd r) - fst r = sa_npop p) rs -> length xs = length rs ->
  sa_chains expf m fit p custom fuel drs gi j rs xs es = Some cs -> Forall2 (fun x c => chain_ok x (sa_npop p) c) xs cs.
Proof.
  intros HM. induction rs as [|[a b] rs IH]; intros j xs es cs F F2 HR L H; cbn [sa_chains] in H.
  - destruct xs; [|discriminate]. inversion H; subst. constructor.
  - inversion F2 as [|x e xs' es' E F2']; subst; [discriminate|].
    apply bind_Some in H. destruct H as (c & Hc & H). apply bind_Some in H. destruct H as (cs' & Hcs & H).
    inversion H; subst. inversion F; subst. inversion HR as [|? ? R1 R2]; subst. cbn [fst snd] in R1.
    constructor; [rewrite <- R1; eapply sa_chain_ok; eauto|]. eapply IH; [| | | |exact Hcs]; auto.
Qed.

(** Points of the log visited by the chains. *)
Lemma chains_max xs cs n L bx bE i Emax c : Forall2 (fun x c => chain_ok x n c) xs cs -> incl xs L ->
  max_of g L bx bE -> argmax (map ch_bE cs) = Some (i, Emax) -> nth_error cs i = Some c ->
  max_of g (L ++ concat (map ch_log cs)) (if Qltb bE Emax then ch_bx c else bx) (if Qltb bE Emax then Emax else bE).
Proof.
  intros F HI HM HA HN. apply argmax_spec in HA. destruct HA as (N1 & N2 & _).
  rewrite nth_error_map, HN in N1. simpl in N1. inversion N1; subst Emax. clear N1.
  assert (LE : forall z, In z (concat (map ch_log cs)) -> (g z <= ch_bE c)%Q).
  { intros z Hz. apply in_concat in Hz. destruct Hz as (l & Hl & Hz). apply in_map_iff in Hl. destruct Hl as (c0 & <- & Hc0).
    assert (exists x0, chain_ok x0 n c0) as (x0 & C0).
    { clear - F Hc0. induction F; [contradiction|]. destruct Hc0 as [<-|?]; eauto. }
    destruct C0 as (_ & _ & _ & (_ & _ & C0) & _). specialize (C0 z (or_intror Hz)).
    pose proof (N2 (ch_bE c0) (in_map ch_bE _ _ Hc0)). lra. }
  assert (CI : In (ch_bx c) (L ++ concat (map ch_log cs)) /\ (ch_bE c == g (ch_bx c))%Q).
  { assert (Hc : In c cs) by (apply nth_error_In in HN; auto).
    assert (exists x0, In x0 xs /\ chain_ok x0 n c) as (x0 & Hx0 & C0).
    { clear - F Hc. induction F; [contradiction|]. destruct Hc as [<-|Hc]; [exists x; simpl; auto|].
      destruct (IHF Hc) as (x0 & ? & ?). exists x0. simpl. auto. }
    destruct C0 as (_ & _ & _ & (C0 & C1 & _) & _). split; auto. apply in_app_iff. destruct C0 as [<-|C0]; auto.
    right. apply in_concat. exists (ch_log c). split; auto. apply in_map; auto. }
  destruct HM as (M1 & M2 & M3).
  destruct (Qltb bE (ch_bE c)) eqn:D; qprop.
  - split; [apply CI|]. split; [apply CI|]. intros z Hz. apply in_app_iff in Hz. destruct Hz as [Hz|Hz]; auto.
    pose proof (M3 z Hz). lra.
  - split; [apply in_app_iff; auto|]. split; [auto|]. intros z Hz. apply in_app_iff in Hz. destruct Hz as [Hz|Hz]; auto.
    pose proof (LE z Hz). lra.
Qed.

Definition next_ok (L : list (list Q)) (xs : list (list Q)) (es : list Q) : Prop :=
  length xs = sa_ncores p /\ Forall sa_ok xs /\ Forall2 (fun x e => e == g x)%Q xs es /\ incl xs L.

Definition sa_inv (st : sa_state) : Prop :=
  next_ok (ss_log st) (ss_xs st) (ss_es st) /\ Forall sa_ok (ss_log st) /\ 1 <= ss_step0 st /\
  (match ss_opt st with
   | None => ss_runs st = [] /\ ss_log st = ss_xs st
   | Some (x, E) => max_of g (ss_log st) x E /\ (ss_stop st = false -> ss_ret st = Some x)
   end) /\
  (ss_stop st = true -> sa_eq p = true) /\
  Forall (fun cs => length cs = sa_ncores p /\ Forall (fun c => ch_acc c + ch_rej c = sa_npop p /\ ch_imp c <= ch_acc c) cs) (ss_runs st) /\
  length (ss_log st) = sa_ncores p + length (ss_runs st) * (sa_npop p * sa_ncores p) /\
  ss_step0 st = 1 + length (ss_runs st) * (sa_npop p * sa_ncores p) /\
  length (ss_hist st) = length (ss_runs st) /\
  (forall v, In v (ss_hist st) -> match ss_opt st with Some (_, E) => (as_max m v <= E)%Q | None => False end) /\
  (match ss_ret st with Some x => In x (ss_log st) | None => True end).

Lemma concat_length_const {A} (l : list (list A)) n : Forall (fun x => length x = n) l -> length (concat l) = length l * n.
Proof. induction 1; simpl; auto. rewrite app_length. lia. Qed.

Lemma chains_next xs cs n L : Forall2 (fun x c => chain_ok x n c) xs cs -> incl xs L -> length xs = sa_ncores p ->
  next_ok (L ++ concat (map ch_log cs)) (map ch_x cs) (map ch_E cs).
Proof.
  intros F HI LX. unfold next_ok. rewrite map_length. split; [rewrite <- (Forall2_length _ _ _ F); auto|]. split; [|split].
  - clear - F. induction F as [|? ? ? ? C]; simpl; constructor; auto. apply C.
  - clear - F. induction F as [|? ? ? ? C]; simpl; constructor; auto. apply C.
  - intros z Hz. apply in_map_iff in Hz. destruct Hz as (c & <- & Hc).
    assert (exists x0, In x0 xs /\ chain_ok x0 n c) as (x0 & Hx0 & C0).
    { clear - F Hc. induction F; [contradiction|]. destruct Hc as [<-|Hc]; [exists x; simpl; auto|].
      destruct (IHF Hc) as (x0 & ? & ?). exists x0. simpl. auto. }
    destruct C0 as (_ & _ & [<-|C0] & _); apply in_app_iff; auto. right. apply in_concat. exists (ch_log c). split; auto. apply in_map; auto.
Qed.

Lemma Forall2_set_nth {A B} (P : A -> B -> Prop) l l' i a b : Forall2 P l l' -> P a b -> Forall2 P (set_nth l i a) (set_nth l' i b).
Proof. intros F H. revert i. induction F; intros [|i]; simpl; constructor; auto. Qed.
Lemma set_nth_length0 {A} (l : list A) : forall i a, length (set_nth l i a) = length l.
Proof. induction l; destruct i; simpl; auto. Qed.

Lemma sa_soft_ok samp rho L cs n xs0 : Forall2 (fun x c => chain_ok x n c) xs0 cs -> Forall sa_ok xs0 -> incl xs0 L -> 
  incl (concat (map ch_log cs)) L ->
  forall todo count xs es xs' es', next_ok L xs es ->
  sa_soft p samp rho cs todo count xs es = Some (xs', es') -> next_ok L xs' es'.
Proof.
  intros F O H1 H2. induction todo as [|pr r IH]; intros count xs es xs' es' (N1 & N2 & N3 & N4) H; cbn [sa_soft] in H.
  - inversion H; subst. repeat split; auto.
  - apply bind_Some in H. destruct H as (i & _ & H). apply bind_Some in H. destruct H as (c & Hc & H).
    eapply IH; [|exact H]. apply nth_error_In in Hc.
    assert (exists x0, In x0 xs0 /\ chain_ok x0 n c) as (x0 & Hx0 & C0).
    { clear - F Hc. induction F; [contradiction|]. destruct Hc as [<-|Hc]; [exists x; simpl; auto|].
      destruct (IHF Hc) as (x0 & ? & ?). exists x0. simpl. auto. }
    destruct C0 as (_ & _ & _ & (B1 & B2 & _) & B3 & _).
    assert (OKB : sa_ok (ch_bx c)).
    { rewrite Forall_forall in O, B3. destruct B1 as [<-|B1]; auto. }
    assert (INB : In (ch_bx c) L).
    { destruct B1 as [<-|B1]; auto. apply H2. apply in_concat. exists (ch_log c). split; auto. apply in_map; auto. }
    split; [rewrite set_nth_length0; auto|]. split; [apply Forall_set_nth; auto|].
    split; [apply Forall2_set_nth; auto|].
    intros z Hz. clear - Hz N4 INB. revert Hz. revert count. induction xs as [|a xs IH]; intros [|k] Hz; simpl in Hz; try contradiction.
    + destruct Hz as [<-|Hz]; auto. apply N4. right; auto.
    + destruct Hz as [<-|Hz]; [apply N4; left; auto|]. eapply IH; eauto. intros q Hq. apply N4. right; auto.
Qed.

Lemma Forall_repeat {A} (P : A -> Prop) a n : P a -> Forall P (repeat a n).
Proof. intros; induction n; simpl; constructor; auto. Qed.

Lemma sa_gen_inv drs Ts rhos gi st st' : moves_ok drs -> sa_inv st ->
  sa_gen expf rnd1 m fit p custom fuel drs Ts rhos gi st = Some st' -> sa_inv st'.
Proof.
  intros HM I H. unfold sa_gen in H. destruct (ss_stop st) eqn:ES; [inversion H; subst; auto|].
  destruct I as ((N1 & N2 & N3 & N4) & I2 & I3 & I4 & I5 & I6 & I7 & I8 & I9 & I10 & I11).
  destruct (Nat.eqb_spec (sa_npop p) 0); [discriminate|].
  apply bind_Some in H. destruct H as (cs & Hcs & H). apply bind_Some in H. destruct H as ([i Emax] & HA & H).
  apply bind_Some in H. destruct H as (c & Hc & H).
  destruct (sa_ranges_spec p (ss_step0 st) ltac:(lia) (sa_ncores p) 1 (ss_step0 st) ltac:(lia) I3 ltac:(lia)) as (R1 & R2 & R3).
  apply sa_chains_ok in Hcs; auto; [|congruence].
  assert (LC : length cs = sa_ncores p) by (rewrite <- (Forall2_length _ _ _ Hcs); auto).
  assert (LG : Forall (fun c => length (ch_log c) = sa_npop p) cs).
  { clear - Hcs. induction Hcs as [|? ? ? ? C]; constructor; auto. apply C. }
  assert (LG' : length (concat (map ch_log cs)) = sa_npop p * sa_ncores p).
  { rewrite (concat_length_const _ (sa_npop p)); [rewrite map_length, LC; lia|].
    clear - LG. induction LG; simpl; constructor; auto. }
  assert (FO : Forall sa_ok (ss_log st ++ concat (map ch_log cs))).
  { apply Forall_app. split; auto. clear - Hcs. induction Hcs as [|? ? ? ? C]; simpl; auto. apply Forall_app. split; auto. apply C. }
  assert (ST : Forall (fun c => ch_acc c + ch_rej c = sa_npop p /\ ch_imp c <= ch_acc c) cs).
  { clear - Hcs. induction Hcs as [|? ? ? ? C]; constructor; auto. destruct C as (_ & _ & _ & _ & _ & ? & ? & _). auto. }
  set (xE := match ss_opt st with None => (ch_bx c, Emax) | Some (x, E) => if Qltb E Emax then (ch_bx c, Emax) else (x, E) end) in *.
  assert (MX : max_of g (ss_log st ++ concat (map ch_log cs)) (fst xE) (snd xE)).
  { unfold xE. destruct (ss_opt st) as [[bx bE]|].
    - destruct I4 as [I4 _]. pose proof (chains_max _ _ _ _ _ _ _ _ _ Hcs N4 I4 HA Hc) as Q.
      destruct (Qltb bE Emax); auto.
    - destruct I4 as [_ I4]. (* first generation *)
      apply argmax_spec in HA. destruct HA as (A1 & A2 & _). rewrite nth_error_map, Hc in A1. simpl in A1. inversion A1; subst Emax. cbn [fst snd].
      assert (HcI : In c cs) by (apply nth_error_In in Hc; auto).
      assert (exists x0, In x0 (ss_xs st) /\ chain_ok x0 (sa_npop p) c) as (x0 & Hx0 & C0).
      { clear - Hcs HcI. induction Hcs; [contradiction|]. destruct HcI as [<-|HcI]; [exists x; simpl; auto|].
        destruct (IHHcs HcI) as (x0 & ? & ?). exists x0. simpl. auto. }
      destruct C0 as (_ & _ & _ & (B1 & B2 & _) & _). split; [|split; auto].
      + apply in_app_iff. destruct B1 as [<-|B1]; auto. right. apply in_concat. exists (ch_log c). split; auto. apply in_map; auto.
      + intros z Hz. rewrite I4 in Hz.
        assert (exists x0 c0, In c0 cs /\ chain_ok x0 (sa_npop p) c0 /\ In z (x0 :: ch_log c0)) as (x1 & c1 & Hc1 & C1 & Hz1).
        { clear - Hcs Hz. apply in_app_iff in Hz. induction Hcs as [|x c xs cs C F IH]; simpl in Hz; [tauto|].
          rewrite in_app_iff in Hz.
          destruct Hz as [[<-|Hz]|[Hz|Hz]].
          - exists x, c. simpl. auto.
          - destruct IH as (x1 & c1 & ? & ? & ?); auto. exists x1, c1. simpl in *. auto.
          - exists x, c. simpl. auto.
          - destruct IH as (x1 & c1 & ? & ? & ?); auto. exists x1, c1. simpl in *. auto. }
        destruct C1 as (_ & _ & _ & (_ & _ & C1) & _). specialize (C1 z Hz1).
        pose proof (A2 (ch_bE c1) (in_map ch_bE _ _ Hc1)). lra. }
  destruct xE as [xo Eo] eqn:EX. cbn [fst snd] in MX.
  assert (HH : forall v, In v (ss_hist st ++ [as_max m Emax]) -> (as_max m v <= Eo)%Q).
  { intros v Hv. apply in_app_iff in Hv. destruct Hv as [Hv|[<-|[]]].
    - specialize (I10 v Hv). unfold xE in EX. destruct (ss_opt st) as [[bx bE]|]; [|contradiction].
      destruct (Qltb bE Emax) eqn:D; inversion EX; subst; qprop; lra.
    - rewrite as_max_invol. unfold xE in EX. destruct (ss_opt st) as [[bx bE]|]; [|inversion EX; lra].
      destruct (Qltb bE Emax) eqn:D; inversion EX; subst; qprop; lra. }
  pose proof (chains_next _ _ _ (ss_log st) Hcs N4 N1) as NX.
  destruct (sa_eq p && _) eqn:EQ.
  - inversion H; subst st'. unfold sa_inv. cbn [ss_log ss_xs ss_es ss_step0 ss_opt ss_ret ss_stop ss_hist ss_runs].
    split; [auto|]. split; [auto|]. split; [lia|]. split; [split; [auto|discriminate]|].
    split; [intros _; apply andb_prop in EQ; apply EQ|]. split; [apply Forall_app; auto|].
    rewrite !app_length. cbn [length]. split; [lia|]. split; [lia|]. split; [lia|]. split; [auto|].
    destruct (ss_ret st); auto. apply in_app_iff; auto.
  - apply bind_Some in H. destruct H as ([xs' es'] & Hr & H). inversion H; subst st'.
    assert (NO : next_ok (ss_log st ++ concat (map ch_log cs)) xs' es').
    { destruct (sa_reinf p).
      - inversion Hr; subst. auto.
      - inversion Hr; subst. destruct MX as (X1 & X2 & _). split; [apply repeat_length|]. split.
        { apply Forall_repeat. rewrite Forall_forall in FO. auto. }
        split; [clear - X2; induction (sa_ncores p); simpl; constructor; auto|].
        intros z Hz. apply repeat_spec in Hz. subst; auto.
      - eapply (sa_soft_ok _ _ _ cs (sa_npop p) (ss_xs st)); [exact Hcs|auto| | |exact NX|exact Hr].
        + intros z Hz. apply in_app_iff; auto.
        + intros z Hz. apply in_app_iff; auto. }
    unfold sa_inv. cbn [ss_log ss_xs ss_es ss_step0 ss_opt ss_ret ss_stop ss_hist ss_runs].
    split; [auto|]. split; [auto|]. split; [lia|]. split; [split; auto|].
    split; [discriminate|]. split; [apply Forall_app; auto|].
    rewrite !app_length. cbn [length]. split; [lia|]. split; [lia|]. split; [lia|]. split; [auto|]. apply MX.
Qed.

Lemma sa_start_inv init : length init = sa_ncores p -> Forall sa_ok init ->
  sa_inv (SaSt init (map (sa_score m fit p) init) 1 None None false [] [] (map (sa_arg p) init)).
Proof.
  intros L F. unfold sa_inv. cbn [ss_log ss_xs ss_es ss_step0 ss_opt ss_ret ss_stop ss_hist ss_runs].
  assert (E : map (sa_arg p) init = init).
  { clear - F W. induction F; simpl; auto. rewrite sa_arg_id, IHF; auto. }
  rewrite E. split.
  { split; auto. split; auto. split; [|apply incl_refl]. clear - F W. induction F; simpl; constructor; auto. rewrite sa_score_g; auto. reflexivity. }
  split; [auto|]. split; [lia|]. split; [auto|]. split; [discriminate|]. split; [auto|]. simpl. repeat (split; [lia|]). auto.
Qed.

Lemma sa_evolute_inv ngen drs Ts rhos init r : moves_ok drs -> Forall sa_ok init ->
  sa_evolute expf rnd1 m fit p custom fuel ngen drs Ts rhos init = Some r ->
  exists st, sa_inv st /\ ss_ret st = Some (sr_x r) /\ (exists xo Eo, ss_opt st = Some (xo, Eo) /\ sr_y r = as_max m Eo) /\
    sr_hist r = ss_hist st /\ sr_runs r = ss_runs st /\ sr_log r = ss_log st /\ sr_stop r = ss_stop st.
Proof.
  intros HM F H. unfold sa_evolute in H. destruct (Nat.eqb_spec (length init) (sa_ncores p)); [|discriminate]. cbn [negb] in H.
  destruct (Nat.eqb_spec (sa_ncores p) 0); [discriminate|].
  apply bind_Some in H. destruct H as (st & E & H). apply bind_Some in H. destruct H as (x & Ex & H).
  apply bind_Some in H. destruct H as ([xo Eo] & Eopt & H). inversion H; subst r. cbn.
  exists st. split; [|repeat (split; [eauto|]); eauto].
  eapply (gens_inv _ sa_inv); [|apply sa_start_inv; eauto|exact E]. intros. eapply sa_gen_inv; eauto.
Qed.

Lemma sa_best ngen drs Ts rhos init r : moves_ok drs -> Forall sa_ok init ->
  sa_evolute expf rnd1 m fit p custom fuel ngen drs Ts rhos init = Some r ->
  (exists x, best_of m fit (sr_log r) x (sr_y r)) /\ In (sr_x r) (sr_log r) /\
  (sr_stop r = false -> best_of m fit (sr_log r) (sr_x r) (sr_y r)) /\
  (sr_stop r = true -> sa_eq p = true) /\
  Forall sa_ok (sr_log r) /\
  Forall (fun cs => length cs = sa_ncores p /\
     Forall (fun c => ch_acc c + ch_rej c = sa_npop p /\ ch_imp c <= ch_acc c) cs) (sr_runs r) /\
  length (sr_log r) = sa_ncores p + length (sr_runs r) * (sa_npop p * sa_ncores p) /\
  (forall v, In v (sr_hist r) -> as_good m (sr_y r) v).
Proof.
  intros HM F H. destruct (sa_evolute_inv _ _ _ _ _ _ HM F H) as (st & I & E1 & (xo & Eo & E2 & E3) & -> & -> & -> & ->).
  destruct I as (I1 & I2 & I3 & I4 & I5 & I6 & I7 & I8 & I9 & I10 & I11). rewrite E2 in I4, I10. rewrite E1 in I11, I4. rewrite E3.
  destruct I4 as [M R].
  split; [exists xo; apply max_of_best; auto|]. split; [auto|]. split.
  { intros S0. specialize (R S0). inversion R; subst xo. apply max_of_best; auto. }
  split; [auto|]. split; [auto|]. split; [auto|]. split; [auto|].
  intros v Hv. apply as_max_good. rewrite as_max_invol. auto.
Qed.

(** ** Only the steps 1..ngen*chain_size of the schedule are used. *)
Lemma gens_ext_range {S} (f f' : nat -> S -> option S) todo : forall k s,
  (forall i x, k <= i < k + todo -> f i x = f' i x) -> gens f k todo s = gens f' k todo s.
Proof.
  induction todo as [|t IH]; intros k s H; cbn [gens]; auto. rewrite H by lia.
  destruct (f' k s); cbn [bind]; auto. apply IH. intros. apply H. lia.
Qed.
Lemma sa_chain_ext drs drs' gi j a b x e : (forall k, a <= k <= b -> drs gi j k = drs' gi j k) ->
  sa_chain expf m fit p custom fuel drs gi j a b x e = sa_chain expf m fit p custom fuel drs' gi j a b x e.
Proof. intros H. unfold sa_chain. apply gens_ext_range. intros i c Hi. rewrite H by lia. reflexivity. Qed.
Lemma sa_chains_ext drs drs' gi lo hi : (forall j k, lo <= k < hi -> drs gi j k = drs' gi j k) ->
  forall rs j xs es, Forall (fun r => lo <= fst r /\ snd r < hi) rs ->
  sa_chains expf m fit p custom fuel drs gi j rs xs es = sa_chains expf m fit p custom fuel drs' gi j rs xs es.
Proof.
  intros H. induction rs as [|[a b] rs IH]; intros j xs es F; cbn [sa_chains]; auto.
  inversion F as [|? ? [F1 F2] F']; subst. cbn [fst snd] in *. destruct xs; auto. destruct es; auto.
  rewrite (sa_chain_ext drs drs') by (intros; apply H; lia). destruct (sa_chain _ _ _ _ _ _ drs' _ _ _ _ _ _); cbn [bind]; auto.
  rewrite IH; auto.
Qed.
Lemma sa_ranges_within step0 : 1 <= sa_npop p -> 1 <= step0 ->
  Forall (fun r => step0 <= fst r /\ snd r < step0 + sa_npop p * sa_ncores p) (sa_ranges p step0 step0 1 (sa_ncores p)).
Proof.
  intros HP HS. assert (G : forall n j kmin, 1 <= j -> j + n = S (sa_ncores p) -> kmin = step0 + (j - 1) * sa_npop p ->
    Forall (fun r => step0 <= fst r /\ snd r < step0 + sa_npop p * sa_ncores p) (sa_ranges p step0 kmin j n)).
  { induction n as [|n IH]; intros j kmin J1 J2 K; cbn [sa_ranges]; constructor.
    - cbn [fst snd]. split; [subst; apply Nat.le_add_r|]. assert (j * sa_npop p <= sa_ncores p * sa_npop p) by (apply Nat.mul_le_mono_r; lia). nia.
    - apply IH; [lia|lia|]. destruct j as [|j]; [lia|]. replace (S (S j) - 1) with (S j) by lia. cbn [Nat.mul]. lia. }
  apply G; lia.
Qed.

Lemma sa_steps ngen drs drs' Ts rhos init : (forall gi j k, 1 <= k <= ngen * sa_npop p -> drs gi j k = drs' gi j k) ->
  sa_evolute expf rnd1 m fit p custom fuel ngen drs Ts rhos init = sa_evolute expf rnd1 m fit p custom fuel ngen drs' Ts rhos init.
Proof.
  intros H. unfold sa_evolute. destruct (negb _); auto. destruct (Nat.eqb_spec (sa_ncores p) 0) as [|NC]; auto.
  assert (G : forall todo gi st, gi + todo = ngen / sa_ncores p ->
    (ss_stop st = true \/ ss_step0 st = 1 + gi * (sa_npop p * sa_ncores p)) ->
    gens (sa_gen expf rnd1 m fit p custom fuel drs Ts rhos) gi todo st = gens (sa_gen expf rnd1 m fit p custom fuel drs' Ts rhos) gi todo st).
  { induction todo as [|t IH]; intros gi st L I; cbn [gens]; auto.
    assert (E : sa_gen expf rnd1 m fit p custom fuel drs Ts rhos gi st = sa_gen expf rnd1 m fit p custom fuel drs' Ts rhos gi st).
    { unfold sa_gen. destruct (ss_stop st) eqn:ES; auto. destruct I as [I|I]; [discriminate|].
      destruct (Nat.eqb_spec (sa_npop p) 0); auto.
      rewrite (sa_chains_ext drs drs' gi (ss_step0 st) (ss_step0 st + sa_npop p * sa_ncores p)); auto.
      - intros j k Hk. apply H. rewrite I in Hk.
        assert (B : (gi + 1) * sa_ncores p <= ngen).
        { apply Nat.le_trans with (ngen / sa_ncores p * sa_ncores p); [apply Nat.mul_le_mono_r; lia|].
          rewrite Nat.mul_comm. apply Nat.mul_div_le. auto. }
        apply (Nat.mul_le_mono_r _ _ (sa_npop p)) in B. nia.
      - apply sa_ranges_within; lia. }
    rewrite E. destruct (sa_gen _ _ _ _ _ _ _ drs' Ts rhos gi st) as [st1|] eqn:E1; cbn [bind]; auto.
    apply IH; [lia|]. clear - E1 I. unfold sa_gen in E1. destruct (ss_stop st) eqn:ES; [inversion E1; subst; auto|].
    destruct I as [I|I]; [discriminate|].
    destruct (_ =? 0); [discriminate|]. apply bind_Some in E1. destruct E1 as (cs & _ & E1).
    apply bind_Some in E1. destruct E1 as ([i Em] & _ & E1). apply bind_Some in E1. destruct E1 as (c & _ & E1).
    destruct (match ss_opt st with None => _ | Some _ => _ end) as [xo Eo].
    destruct (sa_eq p && _); [inversion E1; subst; auto|].
    apply bind_Some in E1. destruct E1 as ([xs es] & _ & E1). inversion E1; subst. right. cbn [ss_step0]. rewrite I. lia. }
  rewrite G; auto.
Qed.

(** ** No exception without equilibrium cooling. *)
Lemma sa_chain_total drs gi j a b x0 E0 : moves_ok drs -> (custom = None -> 1 <= fuel /\ varied drs) -> sa_ok x0 -> (E0 == g x0)%Q ->
  exists c, sa_chain expf m fit p custom fuel drs gi j a b x0 E0 = Some c.
Proof.
  intros HM HV O HE. unfold sa_chain.
  destruct (gens_total (fun k c => sa_step expf m fit p custom fuel gi j k (drs gi j k) c) (fun c => exists n, chain_ok x0 n c)) with
    (todo := S b - a) (g := a) (s := Chain x0 E0 0 0 0 x0 E0 []) as (c & E & _); eauto.
  - intros k c [n C].
    assert (exists c', sa_step expf m fit p custom fuel gi j k (drs gi j k) c = Some c') as (c' & E).
    { unfold sa_step. assert (exists y, match custom with None => def_move fuel (sa_chi p j) (drs gi j k) 0 (sa_dims p) (ch_x c) | Some f => Some (f gi j k (ch_x c)) end = Some y) as (y & ->).
      { destruct C as (C & _). unfold SA_Spec.sa_ok in C. destruct custom as [f|]; [eauto|]. destruct (HV eq_refl) as [HF HV'].
        apply def_move_total; auto. intros i d q Hd _. cbn [Nat.add].
        destruct (HV' gi j k i d Hd) as [|(t1 & t2 & L1 & L2 & N)]; [exists 0; auto|].
        destruct (Qeq_dec q (gen_coord d (sd_su (drs gi j k) i t1) (sd_sk (drs gi j k) i t1))) as [E|E]; [|eauto].
        exists t2. split; auto. right. intros E2. apply N. rewrite <- E, <- E2. reflexivity. }
      cbn [bind]. cbv zeta. destruct (Qltb 0 _); [destruct (Qltb _ _); eauto|]. destruct (Qle_bool _ _); eauto. }
    exists c'. split; auto. exists (S n). eapply sa_step_ok; eauto.
  - exists 0. unfold chain_ok; cbn [ch_x ch_E ch_acc ch_rej ch_imp ch_bx ch_bE ch_log].
    split; [auto|]. split; [auto|]. split; [left; auto|]. split; [|repeat (split; [auto|]); auto].
    split; [left; auto|]. split; [auto|]. intros z [<-|[]]. lra.
Qed.
Lemma sa_chains_total drs gi : moves_ok drs -> (custom = None -> 1 <= fuel /\ varied drs) -> forall rs j xs es, Forall sa_ok xs ->
  Forall2 (fun x e => e == g x)%Q xs es -> length xs = length rs ->
  exists cs, sa_chains expf m fit p custom fuel drs gi j rs xs es = Some cs.
Proof.
  intros HM HV. induction rs as [|[a b] rs IH]; intros j xs es F F2 L; cbn [sa_chains]; eauto.
  inversion F2 as [|x e xs' es' E F2']; subst; [discriminate|]. inversion F; subst.
  destruct (sa_chain_total drs gi j a b x e HM HV) as (c & ->); auto. cbn [bind].
  destruct (IH (S j) xs' es') as (cs & ->); auto. cbn [bind]. eauto.
Qed.

Lemma fold_Qplus l : forall a, (fold_left Qplus l a == a + fold_left Qplus l 0)%Q.
Proof.
  induction l as [|x l IH]; intros a; simpl; [ring|]. rewrite IH, (IH (0 + x)%Q). ring.
Qed.
Lemma acc_from_last_sum l : forall a, (last (acc_from Qplus a l) a == a + fold_left Qplus l 0)%Q.
Proof.
  induction l as [|x l IH]; intros a; cbn [acc_from fold_left]; [simpl; ring|].
  assert (E : forall (b : Q) r d d', last (b :: r) d = last (b :: r) d') by (clear; intros b r; revert b; induction r as [|c r IH]; intros b d d'; [reflexivity|exact (IH c d d')]).
  cbv zeta. destruct (acc_from Qplus (a + x) l) as [|c r] eqn:EA.
  - destruct l; [|discriminate]. simpl. ring.
  - change (last ((a + x)%Q :: c :: r) a) with (last (c :: r) a). rewrite (E c r a (a + x)%Q). specialize (IH (a + x)%Q). rewrite EA in IH.
    rewrite IH. rewrite (fold_Qplus l (0 + x)). ring.
Qed.
Lemma first_above_total : forall s rho i k a b, nth_error s k = Some a -> nth_error rho k = Some b -> (b < a)%Q ->
  exists j, first_above i s rho = Some j /\ j < i + length s.
Proof.
  induction s as [|a0 s IH]; intros [|b0 rho] i [|k] a b Ha Hb L; cbn [nth_error] in *; try discriminate; cbn [first_above].
  - inversion Ha; inversion Hb; subst. apply Qltb_lt in L. rewrite L. exists i. split; auto. simpl. lia.
  - destruct (Qltb b0 a0); [exists i; split; auto; simpl; lia|]. destruct (IH rho (S i) k a b Ha Hb L) as (j & E & Lj).
    exists j. split; auto. simpl. lia.
Qed.
Lemma sa_sampling_last T es s : es <> [] -> sa_sampling expf T es = Some s -> length s = length es /\
  exists a, nth_error s (length es - 1) = Some a /\ (a == 1)%Q.
Proof.
  intros N H. unfold sa_sampling in H. set (w := map _ es) in H. set (tot := fold_left Qplus w 0%Q) in H.
  destruct (Qeq_bool tot 0) eqn:E; [discriminate|]. inversion H; subst s.
  assert (LW : length w = length es) by (apply map_length).
  rewrite map_length, accumulate_length. split; auto.
  rewrite nth_error_map. destruct w as [|x r] eqn:EW; [destruct es; [congruence|discriminate]|].
  rewrite <- LW. rewrite <- (accumulate_length Qplus (x :: r)), (nth_error_last _ 0%Q) by discriminate.
  simpl. eexists. split; [reflexivity|].
  assert (LL : (match acc_from Qplus x r with [] => x | _ :: _ => last (acc_from Qplus x r) 0 end == tot)%Q).
  { unfold tot. cbn [fold_left]. rewrite fold_Qplus. pose proof (acc_from_last_sum r x) as A.
    destruct (acc_from Qplus x r) as [|c q] eqn:EA.
    - simpl in A. rewrite A at 1. ring.
    - assert (E2 : forall (b : Q) r d d', last (b :: r) d = last (b :: r) d') by (clear; intros b r; revert b; induction r as [|c r IH]; intros b d d'; [reflexivity|exact (IH c d d')]).
      rewrite (E2 c q 0%Q x), A. ring. }
  rewrite LL. field. intros Z. apply Qeq_bool_iff in Z. congruence.
Qed.

Lemma sa_soft_total samp rho cs : length cs = sa_ncores p -> 1 <= sa_ncores p ->
  (forall s, samp = Some s -> length s = sa_ncores p /\ exists a, nth_error s (sa_ncores p - 1) = Some a /\ (a == 1)%Q) ->
  length rho = sa_ncores p -> Forall (fun q => q == 1 \/ (q < 1))%Q rho ->
  ((exists b, nth_error rho (sa_ncores p - 1) = Some b /\ (b < 1)%Q) \/ Forall (fun q => q == 1)%Q rho) ->
  forall todo count xs es, incl todo rho -> length es = sa_ncores p -> exists r, sa_soft p samp rho cs todo count xs es = Some r.
Proof.
  intros LC NC HS LR F HR. induction todo as [|pr r IH]; intros count xs es HI LE; cbn [sa_soft]; eauto.
  assert (exists i, sa_index p samp rho pr es = Some i /\ i < sa_ncores p) as (i & -> & Li).
  { unfold sa_index. destruct (Qeq_bool pr 1) eqn:E1; [eexists; split; eauto; lia|].
    destruct samp as [s|].
    - destruct (HS s eq_refl) as (L1 & a & L2 & L3). destruct (Qle_bool _ _); [exists 0; split; auto; lia|].
      destruct HR as [(b & B1 & B2)|HR].
      + destruct (first_above_total s rho 0 _ a b L2 B1) as (i & E & Li); [rewrite L3; auto|]. exists i. split; auto. lia.
      + exfalso. rewrite Forall_forall in HR. specialize (HR pr (HI pr (or_introl eq_refl))). apply Qeq_bool_iff in HR. congruence.
    - destruct (argmax_Some es) as (i & v & E); [destruct es; [simpl in LE; lia|discriminate]|]. rewrite E. cbn [bind].
      exists i. split; auto. apply argmax_spec in E. destruct E as [E _].
      assert (i < length es) by (apply nth_error_Some; congruence). lia. }
  cbn [bind]. destruct (nth_error cs i) as [c|] eqn:EC; [|apply nth_error_None in EC; lia]. cbn [bind].
  apply IH; [intros z Hz; apply HI; right; auto|]. rewrite set_nth_length0; auto.
Qed.

Lemma sa_total ngen drs Ts rhos init : moves_ok drs -> (custom = None -> 1 <= fuel /\ varied drs) -> Forall sa_ok init ->
  length init = sa_ncores p -> 1 <= sa_npop p -> 1 <= sa_ncores p -> sa_ncores p <= ngen -> sa_eq p = false ->
  (forall a b, (rhos a b < 1)%Q) ->
  exists r, sa_evolute expf rnd1 m fit p custom fuel ngen drs Ts rhos init = Some r /\ sr_stop r = false /\
    length (sr_runs r) = ngen / sa_ncores p.
Proof.
  intros HM HV F L NP NC NG NE HR. unfold sa_evolute. rewrite L, Nat.eqb_refl. cbn [negb]. destruct (Nat.eqb_spec (sa_ncores p) 0); [lia|].
  set (st0 := SaSt _ _ _ _ _ _ _ _ _). assert (I0 : sa_inv st0) by (apply sa_start_inv; auto).
  assert (S0 : ss_stop st0 = false) by reflexivity.
  assert (G : forall gi st, sa_inv st -> ss_stop st = false -> exists st', sa_gen expf rnd1 m fit p custom fuel drs Ts rhos gi st = Some st' /\
    ss_stop st' = false /\ ss_ret st' <> None /\ ss_opt st' <> None /\ length (ss_runs st') = S (length (ss_runs st))).
  { intros gi st I ES. unfold sa_gen. rewrite ES. destruct (Nat.eqb_spec (sa_npop p) 0); [lia|].
    destruct I as ((N1 & N2 & N3 & N4) & I2 & I3 & _).
    destruct (sa_ranges_spec p (ss_step0 st) ltac:(lia) (sa_ncores p) 1 (ss_step0 st) ltac:(lia) I3 ltac:(lia)) as (R1 & R2 & R3).
    destruct (sa_chains_total drs gi HM HV (sa_ranges p (ss_step0 st) (ss_step0 st) 1 (sa_ncores p)) 0 (ss_xs st) (ss_es st)) as (cs & Hcs); auto; [congruence|].
    rewrite Hcs. cbn [bind]. apply sa_chains_ok in Hcs; auto; [|congruence].
    assert (LC : length cs = sa_ncores p) by (rewrite <- (Forall2_length _ _ _ Hcs); auto).
    destruct (argmax_Some (map ch_bE cs)) as (i & Em & HA); [destruct cs; [simpl in LC; lia|discriminate]|]. rewrite HA. cbn [bind].
    apply argmax_spec in HA. destruct HA as (A1 & _). rewrite nth_error_map in A1. destruct (nth_error cs i) as [c|] eqn:EC; [|discriminate].
    cbn [bind]. destruct (match ss_opt st with None => _ | Some _ => _ end) as [xo Eo]. rewrite NE. cbn [andb].
    cbv zeta. match goal with |- exists st', bind ?t _ = _ /\ _ => assert (exists r, t = Some r) as ([xs' es'] & ->) end.
    { destruct (sa_reinf p); eauto. cbv zeta. apply sa_soft_total; auto.
      - intros s Hs. apply sa_sampling_last in Hs; [|destruct cs; [simpl in LC; lia|discriminate]].
        rewrite map_length, LC in Hs. auto.
      - destruct (Nat.eqb_spec (sa_ncores p) 1) as [->|]; [reflexivity|]. rewrite map_length, seq_length; auto.
      - destruct (_ =? 1); [repeat constructor; reflexivity|]. apply Forall_forall. intros q Hq. apply in_map_iff in Hq. destruct Hq as (k & <- & _). right. apply HR.
      - destruct (_ =? 1); [right; repeat constructor; reflexivity|]. left. rewrite nth_error_map.
        exists (rhos gi (sa_ncores p - 1)). split; [|apply HR].
        assert (E : nth_error (seq 0 (sa_ncores p)) (sa_ncores p - 1) = Some (sa_ncores p - 1)).
        { rewrite (nth_error_nth' _ 0) by (rewrite seq_length; lia). rewrite seq_nth by lia. reflexivity. }
        rewrite E. reflexivity.
      - apply incl_refl.
      - rewrite map_length. auto. }
    cbn [bind]. eexists. split; [reflexivity|]. cbn. rewrite app_length. simpl. split; [auto|]. split; [discriminate|]. split; [discriminate|lia]. }
  assert (GG : forall todo gi st, sa_inv st -> ss_stop st = false -> 1 <= todo -> exists st',
    gens (sa_gen expf rnd1 m fit p custom fuel drs Ts rhos) gi todo st = Some st' /\ ss_stop st' = false /\ ss_ret st' <> None /\ ss_opt st' <> None /\
    length (ss_runs st') = todo + length (ss_runs st)).
  { induction todo as [|t IH]; intros gi st I ES LT; [lia|]. cbn [gens].
    destruct (G gi st I ES) as (st1 & E1 & E2 & E3 & E4 & E5). rewrite E1. cbn [bind].
    destruct t as [|t]; [exists st1; cbn [gens]; rewrite E5; auto|].
    destruct (IH (S gi) st1) as (st2 & F1 & F2 & F3 & F4 & F5); auto; [eapply sa_gen_inv; eauto|lia|].
    exists st2. rewrite F5, E5. repeat (split; [auto|]). lia. }
  destruct (GG (ngen / sa_ncores p) 0 st0 I0 S0) as (st & -> & E2 & E3 & E4 & E5).
  { apply Nat.div_le_lower_bound; lia. }
  cbn [bind]. destruct (ss_ret st); [|congruence]. cbn [bind]. destruct (ss_opt st) as [[xo Eo]|]; [|congruence]. cbn [bind].
  eexists. split; [reflexivity|]. cbn. split; auto. rewrite E5. simpl. lia.
Qed.

(** Fewer generations than chains: nothing is run and the result variable is unbound. *)
Lemma sa_short ngen drs Ts rhos init : ngen < sa_ncores p -> sa_evolute expf rnd1 m fit p custom fuel ngen drs Ts rhos init = None.
Proof.
  intros H. unfold sa_evolute. destruct (negb _); auto. destruct (_ =? 0); auto. rewrite Nat.div_small by auto. reflexivity.
Qed.

(** Equilibrium cooling that stops in the first generation: the same. *)
Lemma sa_stop_first ngen drs Ts rhos init : sa_eq p = true -> (forall cs, mean_accept rnd1 p cs <= sa_thr p)%Q ->
  sa_evolute expf rnd1 m fit p custom fuel ngen drs Ts rhos init = None.
Proof.
  intros HE HT. unfold sa_evolute. destruct (negb _); auto. destruct (_ =? 0); auto.
  set (st0 := SaSt _ _ _ _ _ _ _ _ _).
  assert (G : forall todo gi st st', ss_ret st = None -> gens (sa_gen expf rnd1 m fit p custom fuel drs Ts rhos) gi todo st = Some st' -> ss_ret st' = None).
  { intros todo gi st st' I E. revert I E. apply (gens_inv _ (fun st => ss_ret st = None)). clear - HE HT. intros gi st st' I E.
    unfold sa_gen in E. destruct (ss_stop st); [inversion E; subst; auto|].
    destruct (_ =? 0); [discriminate|]. apply bind_Some in E. destruct E as (cs & _ & E).
    apply bind_Some in E. destruct E as ([i Em] & _ & E). apply bind_Some in E. destruct E as (c & _ & E).
    destruct (match ss_opt st with None => _ | Some _ => _ end) as [xo Eo]. rewrite HE in E.
    specialize (HT cs). apply Qle_bool_iff in HT. rewrite HT in E. cbn [andb orb] in E. inversion E; subst. auto. }
  destruct (gens _ 0 _ st0) as [st|] eqn:E; cbn [bind]; auto. apply G in E; auto. rewrite E. reflexivity.
Qed.
End SA.

(** ** Witnesses. *)
Definition sa_demo_dims : list dimn := [Dim true 0 5; Dim false 0 1].
Definition sa_demo_par : sa_par := SaPar sa_demo_dims 3 2 (fun _ => 1#2)%Q RSoft false 10.
Definition sa_demo_fit (x : list Q) : Q := fold_right Qplus 0%Q x.
Definition sa_demo_init : list (list Q) := [[4; 1#2]; [0; 1]]%Q.
Definition sa_demo_draw (a b c : nat) : sdraw :=
  SDraw 10 (fun i => if Nat.even (a + b + c + i) then 0 else 1)%Q (fun i t => 1 # Pos.of_nat (S t))%Q (fun i t => t) (1#2).

Lemma sa_demo_ok : wf_dims sa_demo_dims /\ Forall (feasible sa_demo_dims) sa_demo_init /\ length sa_demo_init = sa_ncores sa_demo_par /\
  (forall a b c, good_draw (sa_demo_draw a b c)) /\ varied sa_demo_par 2 sa_demo_draw.
Proof.
  split; [demo_space|]. split; [demo_space|]. split; [reflexivity|]. split.
  - intros a b c i t. unfold sa_demo_draw. cbn [sd_su]. split; unfold Qle; cbn [Qnum Qden]; lia.
  - intros a b c i d H. right. exists 0, 1. split; [lia|]. split; [lia|].
    destruct i as [|[|i]]; [| |destruct i; discriminate]; simpl in H; inversion H; subst; vm_compute; discriminate.
Qed.
Lemma sa_demo_runs expf rnd1 : exists r,
  sa_evolute expf rnd1 Mmax sa_demo_fit sa_demo_par None 2 4 sa_demo_draw (fun _ => 1%Q) (fun _ _ => 1#2)%Q sa_demo_init = Some r /\
  (9#2 <= sr_y r)%Q /\ length (sr_log r) = 14.
Proof.
  destruct sa_demo_ok as (W & F & L & G & V).
  destruct (sa_total expf rnd1 Mmax sa_demo_fit sa_demo_par None 2 W 4 sa_demo_draw (fun _ => 1%Q) (fun _ _ => 1#2)%Q sa_demo_init) as (r & E & S0 & LR); auto.
  all: try (simpl; lia); try (intros; reflexivity).
  exists r. split; auto. pose proof E as E2. apply sa_best in E2; auto. destruct E2 as (_ & _ & B & _ & _ & _ & LL & _).
  rewrite LR in LL. split; [|rewrite LL; reflexivity]. specialize (B S0). destruct B as (_ & _ & B).
  apply (B [4; 1#2]%Q). clear - E. unfold sa_evolute in E. cbn [length sa_demo_init sa_ncores sa_demo_par Nat.eqb negb] in E.
  apply bind_Some in E. destruct E as (st & E & H). apply bind_Some in H. destruct H as (x & _ & H). apply bind_Some in H. destruct H as ([xo Eo] & _ & H).
  inversion H; subst. cbn [sr_log]. revert E.
  apply (gens_inv _ (fun s => In [4; 1#2]%Q (ss_log s))); [|left; reflexivity].
  clear. intros gi st st' I E. unfold sa_gen in E. destruct (ss_stop st); [inversion E; subst; auto|].
  destruct (_ =? 0); [discriminate|]. apply bind_Some in E. destruct E as (cs & _ & E).
  apply bind_Some in E. destruct E as ([i Em] & _ & E). apply bind_Some in E. destruct E as (c & _ & E).
  destruct (match ss_opt st with None => _ | Some _ => _ end) as [xo Eo].
  destruct (sa_eq _ && _); [inversion E; subst; cbn [ss_log]; apply in_app_iff; auto|].
  apply bind_Some in E. destruct E as ([xs es] & _ & E). inversion E; subst. cbn [ss_log]. apply in_app_iff; auto.
Qed.

(** Equilibrium cooling: the run stops in its second generation, which has just found a better
    point; the returned position is still that of the first generation. *)
Definition sa_wit_fit (x : list Q) : Q := match x with [a] => a | _ => 0 end%Q.
Definition sa_wit_par : sa_par := SaPar [Dim false 0 100] 2 2 (fun _ => 1%Q) RNone true 75.
Definition sa_wit_move (a b c : nat) (x : list Q) : list Q :=
  match a, b, c with
  | 0, 0, 1 => [11%Q] | 0, 0, 2 => [12%Q] | 0, 1, 3 => [21%Q] | 0, 1, 4 => [22%Q]
  | 1, 1, 7 => [50%Q] | _, _, _ => [0%Q]
  end.
Definition sa_wit_draw (a b c : nat) : sdraw := SDraw 1 (fun _ => 0%Q) (fun _ _ => 0%Q) (fun _ _ => 0) 2.
Lemma sa_equilibrium_wrong : exists expf, (forall q, 0 < expf q)%Q /\ exists r,
  wf_dims (sa_dims sa_wit_par) /\
  sa_evolute expf (fun q => q) Mmax sa_wit_fit sa_wit_par (Some sa_wit_move) 0 20 sa_wit_draw (fun _ => 1%Q) (fun _ _ => 0%Q) [[10]; [20]]%Q = Some r /\
  sr_stop r = true /\ ~ (sr_y r == sa_wit_fit (sr_x r))%Q.
Proof.
  exists (fun _ => 1%Q). split; [reflexivity|]. eexists. split; [demo_space|]. split; [vm_compute; reflexivity|].
  split; [reflexivity|]. vm_compute. discriminate.
Qed.

(** Statements for the built-in move. *)
Lemma sa_chain_full expf m fit p fuel : wf_dims (sa_dims p) ->
  forall drs g j kmin kmax x0 E0 c, (forall a b k i t, (0 <= sd_su (drs a b k) i t <= 1)%Q) ->
  feasible (sa_dims p) x0 -> (E0 == as_max m (fit x0))%Q ->
  sa_chain expf m fit p None fuel drs g j kmin kmax x0 E0 = Some c ->
  length (ch_log c) = S kmax - kmin /\ ch_acc c + ch_rej c = S kmax - kmin /\ ch_imp c <= ch_acc c /\
  best_of m fit (x0 :: ch_log c) (ch_bx c) (as_max m (ch_bE c)) /\
  In (ch_x c) (x0 :: ch_log c) /\ (ch_E c == as_max m (fit (ch_x c)))%Q /\ Forall (feasible (sa_dims p)) (ch_log c).
Proof.
  intros W drs g j kmin kmax x0 E0 c G F HE H. assert (HM : moves_ok p None drs) by (intros a b k i t; apply G).
  apply (sa_chain_ok expf m fit p None fuel W drs g j kmin kmax x0 E0 c HM F HE) in H.
  destruct H as (A1 & A2 & A3 & A4 & A5 & A6 & A7 & A8).
  split; [auto|]. split; [auto|]. split; [auto|]. split; [apply max_of_best; exact A4|]. auto.
Qed.
Lemma sa_best_default expf rnd1 m fit p fuel : wf_dims (sa_dims p) ->
  forall ngen drs Ts rhos init r, (forall a b k i t, (0 <= sd_su (drs a b k) i t <= 1)%Q) ->
  Forall (feasible (sa_dims p)) init ->
  sa_evolute expf rnd1 m fit p None fuel ngen drs Ts rhos init = Some r ->
  (exists x, best_of m fit (sr_log r) x (sr_y r)) /\ In (sr_x r) (sr_log r) /\
  (sr_stop r = false -> best_of m fit (sr_log r) (sr_x r) (sr_y r)) /\
  (sr_stop r = true -> sa_eq p = true) /\
  Forall (feasible (sa_dims p)) (sr_log r) /\
  Forall (fun cs => length cs = sa_ncores p /\
     Forall (fun c => ch_acc c + ch_rej c = sa_npop p /\ ch_imp c <= ch_acc c) cs) (sr_runs r) /\
  length (sr_log r) = sa_ncores p + length (sr_runs r) * (sa_npop p * sa_ncores p) /\
  (forall v, In v (sr_hist r) -> as_good m (sr_y r) v).
Proof.
  intros W ngen drs Ts rhos init r G F H. apply (sa_best expf rnd1 m fit p None fuel W ngen drs Ts rhos init r); auto.
Qed.

Lemma gens_last {S} (step : nat -> S -> option S) : forall todo k s s2, gens step k (Datatypes.S todo) s = Some s2 ->
  exists s1, gens step k todo s = Some s1 /\ step (k + todo) s1 = Some s2.
Proof.
  induction todo as [|t IH]; intros k s s2 H.
  - cbn [gens] in *. rewrite Nat.add_0_r. destruct (step k s) as [s'|] eqn:E; [|discriminate]. cbn [bind gens] in H. injection H as ->. eauto.
  - remember (Datatypes.S t) as t'. cbn [gens] in H. destruct (step k s) as [s'|] eqn:E; [|discriminate]. cbn [bind] in H. subst t'.
    destruct (IH _ _ _ H) as (s1 & A & B). exists s1. cbn [gens]. rewrite E. cbn [bind]. split; [auto|]. rewrite <- B. f_equal. lia.
Qed.

Lemma sa_metropolis expf m fit p fuel : wf_dims (sa_dims p) ->
  forall drs g j kmin kmax x0 E0 c, kmin <= S kmax -> (forall a b k i t, (0 <= sd_su (drs a b k) i t <= 1)%Q) ->
  feasible (sa_dims p) x0 -> (E0 == as_max m (fit x0))%Q ->
  sa_chain expf m fit p None fuel drs g j kmin (S kmax) x0 E0 = Some c ->
  exists c0 x, sa_chain expf m fit p None fuel drs g j kmin kmax x0 E0 = Some c0 /\
    def_move fuel (sa_chi p j) (drs g j (S kmax)) 0 (sa_dims p) (ch_x c0) = Some x /\ ch_log c = ch_log c0 ++ [x] /\
    let gain := (as_max m (fit x) - ch_E c0)%Q in
    let rule := metropolis expf (sd_T (drs g j (S kmax))) (sd_acc (drs g j (S kmax))) gain in
    (rule -> ch_x c = x /\ ch_E c = as_max m (fit x) /\ ch_acc c = S (ch_acc c0) /\ ch_rej c = ch_rej c0) /\
    (~ rule -> ch_x c = ch_x c0 /\ ch_E c = ch_E c0 /\ ch_acc c = ch_acc c0 /\ ch_rej c = S (ch_rej c0)) /\
    ((0 < gain)%Q -> ch_imp c = S (ch_imp c0)) /\ (~ (0 < gain)%Q -> ch_imp c = ch_imp c0).
Proof.
  intros W drs g j kmin kmax x0 E0 c Hk G F HE H. unfold sa_chain in H. replace (S (S kmax) - kmin) with (S (S kmax - kmin)) in H by lia.
  apply gens_last in H. destruct H as (c0 & A & B). exists c0. replace (kmin + (S kmax - kmin)) with (S kmax) in B by lia.
  assert (HM : moves_ok p None drs) by (intros a b k i t; apply G).
  assert (Fx : feasible (sa_dims p) (ch_x c0)). { assert (K := sa_chain_ok expf m fit p None fuel W drs g j kmin kmax x0 E0 c0 HM F HE A). unfold chain_ok, sa_ok in K. tauto. }
  unfold sa_step in B. destruct (def_move fuel (sa_chi p j) (drs g j (S kmax)) 0 (sa_dims p) (ch_x c0)) as [x|] eqn:Ex; [|discriminate].
  cbn [bind] in B. exists x. split; [exact A|]. split; [auto|].
  assert (FX : feasible (sa_dims p) x) by (destruct (def_move_spec fuel (sa_chi p j) (drs g j (S kmax)) (HM g j (S kmax)) _ _ _ _ W Fx Ex); auto).
  assert (EI : clip_vec (sa_bounds p) x = x) by (apply (sa_arg_id p None); auto).
  assert (Sc : sa_score m fit p x = as_max m (fit x)) by (apply (sa_score_g m fit p None); auto).
  rewrite EI, Sc in B. unfold sa_arg in B. rewrite EI in B. unfold metropolis.
  destruct (Qltb 0 (as_max m (fit x) - ch_E c0)) eqn:E1.
  - apply Qltb_lt in E1.
    assert (R : ch_x c = x /\ ch_E c = as_max m (fit x) /\ ch_acc c = S (ch_acc c0) /\ ch_rej c = ch_rej c0 /\ ch_imp c = S (ch_imp c0) /\ ch_log c = ch_log c0 ++ [x]).
    { destruct (Qltb (ch_bE c0) (as_max m (fit x))); injection B as <-; simpl; auto 10. }
    destruct R as (R1 & R2 & R3 & R4 & R5 & R6). split; [auto|]. split; [auto|]. split; [intro N; exfalso; apply N; auto|]. split; [auto|]. intro N. contradiction.
  - assert (N1 : ~ (0 < as_max m (fit x) - ch_E c0)%Q) by (intro N; apply Qltb_lt in N; congruence).
    destruct (Qle_bool (sd_acc (drs g j (S kmax))) (expf ((as_max m (fit x) - ch_E c0) / sd_T (drs g j (S kmax)))%Q)) eqn:E2.
    + apply Qle_bool_iff in E2. injection B as <-. simpl. split; [auto|]. split; [auto|]. split; [intro N; exfalso; apply N; auto|]. split; [intro N; contradiction|auto].
    + injection B as <-. simpl. split; [auto|]. split; [intros [N|N]; [contradiction|apply Qle_bool_iff in N; congruence]|].
      split; [auto|]. split; [intro N; contradiction|auto].
Qed.
