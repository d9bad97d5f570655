(** Proofs about seeds. *)
From Coq Require Import List Arith Bool Lia.
From Verif Require Import SD_Model SD_Spec.
Import ListNotations.

Lemma reseeds_iff k : reseeds k = true <-> In k seeding_runs.
Proof. unfold seeding_runs. split; [destruct k; simpl; try discriminate; tauto|]. simpl. intros H. repeat (destruct H as [<-|H]; [reflexivity|]). destruct H. Qed.
Lemma reseeds_not k : ~ In k seeding_runs -> reseeds k = false.
Proof. intros H. destruct (reseeds k) eqn:E; [|reflexivity]. elim H. now apply reseeds_iff. Qed.

Section P.
Variables (P N : Type) (pseed : nat -> P) (nseed : nat -> N) (M A Res : Type) (fresh : kind -> M) (run : kind -> M -> A -> P * N -> Res * M * (P * N)).
Notation results := (results P N pseed nseed M A Res fresh run). Notation step := (step P N pseed nseed M A Res fresh run).
Notation set_seed := (set_neorl_seed P N pseed nseed). Notation event := (event P N A). Notation state := (objects M * (P * N))%type.
Notation build := (Build P N A). Notation evolute := (Evolute P N A).

Theorem seeded : (forall s w w', set_seed (Some s) w = set_seed (Some s) w') /\ forall w, set_seed None w = w.
Proof. split; reflexivity. Qed.

Lemma results_app es es' st : results (es ++ es') st = (fst (results es st) ++ fst (results es' (snd (results es st))), snd (results es' (snd (results es st)))).
Proof.
  revert st. induction es as [|e es IH]; intros st; cbn [app SD_Model.results].
  - cbn [fst snd app]. destruct (results es' st); reflexivity.
  - destruct (step e st) as [x st1]. rewrite IH. destruct (results es st1) as [l st2]. cbn [fst snd]. destruct x; reflexivity.
Qed.
Lemma put_same n o (os : objects M) : put M n o os n = Some o.
Proof. unfold put. now rewrite Nat.eqb_refl. Qed.
Lemma put_other n m o (os : objects M) : m <> n -> put M n o os m = os m.
Proof. intros H. unfold put. now apply Nat.eqb_neq in H as ->. Qed.
(** What is called n keeps its kind and seed, and its memory if it is not run. *)
Lemma step_elsewhere n e (st : state) : elsewhere n e -> fst (snd (step e st)) n = fst st n.
Proof.
  destruct st as [os w]. destruct e as [m k s|m a|f]; cbn [elsewhere SD_Model.step]; intros H.
  - apply put_other. auto.
  - destruct (os m) as [o|]; [|reflexivity]. destruct (run _ _ _ _) as [[r mm] w2]. apply put_other. auto.
  - reflexivity.
Qed.
Lemma results_elsewhere n es (st : state) : Forall (elsewhere n) es -> fst (snd (results es st)) n = fst st n.
Proof.
  intros H. revert st. induction H as [|e es He _ IH]; intros st; [reflexivity|]. cbn [SD_Model.results]. pose proof (step_elsewhere n e st He) as S. destruct (step e st) as [x st1]. specialize (IH st1).
  destruct (results es st1) as [l st2]. cbn [fst snd] in *. congruence.
Qed.
Lemma step_keeps n e (st : state) k s m : keeps n e -> fst st n = Some (mkObj M k s m) -> exists m', fst (snd (step e st)) n = Some (mkObj M k s m').
Proof.
  destruct st as [os w]. destruct e as [j k' s'|j a|f]; cbn [keeps SD_Model.step fst]; intros H O.
  - exists m. cbn [fst snd]. rewrite put_other by auto. exact O.
  - destruct (Nat.eq_dec j n) as [->|D].
    + rewrite O. cbn [o_kind o_seed o_memory]. destruct (run _ _ _ _) as [[r mm] w2]. exists mm. cbn [fst snd]. now rewrite put_same.
    + exists m. destruct (os j) as [o|]; [|exact O]. destruct (run _ _ _ _) as [[r mm] w2]. cbn [fst snd]. rewrite put_other by auto. exact O.
  - exists m. exact O.
Qed.
Lemma results_keeps n es (st : state) k s m : Forall (keeps n) es -> fst st n = Some (mkObj M k s m) -> exists m', fst (snd (results es st)) n = Some (mkObj M k s m').
Proof.
  intros H. revert st m. induction H as [|e es He _ IH]; intros st m O; [exists m; exact O|]. cbn [SD_Model.results].
  destruct (step_keeps n e st k s m He O) as [m1 O1]. destruct (step e st) as [x st1]. destruct (IH st1 m1 O1) as [m2 O2]. destruct (results es st1) as [l st2]. exists m2. exact O2.
Qed.
Lemma last_run h n a (st : state) o : fst (snd (results h st)) n = Some o ->
  exists w2 m2, results (h ++ [evolute n a]) st = (fst (results h st) ++ [fst (fst (run (o_kind M o) (o_memory M o) a (if reseeds (o_kind M o) then set_seed (o_seed M o) (snd (snd (results h st))) else snd (snd (results h st)))))],
    (put M n (mkObj M (o_kind M o) (o_seed M o) m2) (fst (snd (results h st))), w2)).
Proof.
  intros O. rewrite results_app. destruct (snd (results h st)) as [os w] eqn:E. cbn [fst snd] in *. cbn [SD_Model.results SD_Model.step]. rewrite O.
  destruct (run _ _ _ _) as [[r mm] w2]. exists w2, mm. reflexivity.
Qed.
Lemma built h0 n k s h (st : state) : snd (results (h0 ++ build n k s :: h) st) = snd (results h (put M n (mkObj M k s (fresh k)) (fst (snd (results h0 st))), set_seed s (snd (snd (results h0 st))))).
Proof. rewrite results_app. cbn [snd]. destruct (snd (results h0 st)) as [os w]. cbn [SD_Model.results SD_Model.step fst snd]. destruct (results h _) as [l st2]. reflexivity. Qed.

(** A run that seeds: only the seed, the argument and the memory matter. *)
Theorem every_run k n s a h0 h (st : state) : In k seeding_runs -> Forall (elsewhere n) h ->
  exists l, fst (results ((h0 ++ build n k (Some s) :: h) ++ [evolute n a]) st) = l ++ [fst (fst (run k (fresh k) a (pseed s, nseed s)))].
Proof.
  intros K H. apply reseeds_iff in K. destruct (last_run (h0 ++ build n k (Some s) :: h) n a st (mkObj M k (Some s) (fresh k))) as (w2 & m2 & E).
  - rewrite built, results_elsewhere by exact H. apply put_same.
  - rewrite E. cbn [fst o_kind o_seed o_memory]. rewrite K. eexists. reflexivity.
Qed.
Theorem every_run_again k n s a h0 h (st : state) : In k seeding_runs -> (forall m w, fst (fst (run k m a w)) = fst (fst (run k (fresh k) a w))) -> Forall (keeps n) h ->
  exists l, fst (results ((h0 ++ build n k (Some s) :: h) ++ [evolute n a]) st) = l ++ [fst (fst (run k (fresh k) a (pseed s, nseed s)))].
Proof.
  intros K Hm H. apply reseeds_iff in K.
  destruct (results_keeps n h (put M n (mkObj M k (Some s) (fresh k)) (fst (snd (results h0 st))), set_seed (Some s) (snd (snd (results h0 st)))) k (Some s) (fresh k) H) as [m Om]; [apply put_same|].
  destruct (last_run (h0 ++ build n k (Some s) :: h) n a st (mkObj M k (Some s) m)) as (w2 & m2 & E).
  - now rewrite built.
  - rewrite E. cbn [fst o_kind o_seed o_memory]. rewrite K, Hm. eexists. reflexivity.
Qed.
(** The run right after the construction. *)
Theorem first_run k n s a h0 (st : state) : exists l, fst (results (h0 ++ [build n k (Some s); evolute n a]) st) = l ++ [fst (fst (run k (fresh k) a (pseed s, nseed s)))].
Proof.
  change [build n k (Some s); evolute n a] with ([build n k (Some s)] ++ [evolute n a]). rewrite app_assoc.
  destruct (last_run (h0 ++ [build n k (Some s)]) n a st (mkObj M k (Some s) (fresh k))) as (w2 & m2 & E); [rewrite built; apply put_same|].
  rewrite E. cbn [fst o_kind o_seed o_memory]. rewrite built. cbn [SD_Model.results snd set_neorl_seed]. destruct (reseeds k); eexists; reflexivity.
Qed.
(** Another construction in between. *)
Theorem built_between k n s k' n' s' a h0 (st : state) : ~ In k seeding_runs -> n' <> n ->
  exists l, fst (results (h0 ++ [build n k (Some s); build n' k' (Some s'); evolute n a]) st) = l ++ [fst (fst (run k (fresh k) a (pseed s', nseed s')))].
Proof.
  intros K D. apply reseeds_not in K. change [build n k (Some s); build n' k' (Some s'); evolute n a] with ([build n k (Some s); build n' k' (Some s')] ++ [evolute n a]). rewrite app_assoc.
  destruct (last_run (h0 ++ [build n k (Some s); build n' k' (Some s')]) n a st (mkObj M k (Some s) (fresh k))) as (w2 & m2 & E).
  - rewrite built. cbn [SD_Model.results SD_Model.step snd fst]. rewrite put_other by auto. apply put_same.
  - rewrite E. cbn [fst o_kind o_seed o_memory]. rewrite K, built. cbn [SD_Model.results SD_Model.step snd fst set_neorl_seed]. eexists. reflexivity.
Qed.
(** A run that seeds in between. *)
Theorem run_between k n s k' n' s' a a' f h0 (st : state) : ~ In k seeding_runs -> In k' seeding_runs -> n' <> n ->
  exists l, fst (results (h0 ++ [build n' k' (Some s'); build n k (Some s); Elsewhere P N A f; evolute n' a'; evolute n a]) st) =
    l ++ [fst (fst (run k (fresh k) a (snd (run k' (fresh k') a' (pseed s', nseed s')))))].
Proof.
  intros K K' D. apply reseeds_not in K. apply reseeds_iff in K'.
  change [build n' k' (Some s'); build n k (Some s); Elsewhere P N A f; evolute n' a'; evolute n a] with ([build n' k' (Some s'); build n k (Some s); Elsewhere P N A f; evolute n' a'] ++ [evolute n a]). rewrite app_assoc.
  assert (S : exists os, snd (results (h0 ++ [build n' k' (Some s'); build n k (Some s); Elsewhere P N A f; evolute n' a']) st) = (os, snd (run k' (fresh k') a' (pseed s', nseed s'))) /\ os n = Some (mkObj M k (Some s) (fresh k))).
  { rewrite built. cbn [SD_Model.results SD_Model.step]. rewrite put_other, put_same by auto. cbn [o_kind o_seed o_memory]. rewrite K'. cbn [set_neorl_seed].
    destruct (run k' (fresh k') a' (pseed s', nseed s')) as [[r m] w]. eexists. split; [reflexivity|]. cbn [fst]. rewrite put_other by auto. apply put_same. }
  destruct S as (os & S & On). destruct (last_run (h0 ++ [build n' k' (Some s'); build n k (Some s); Elsewhere P N A f; evolute n' a']) n a st (mkObj M k (Some s) (fresh k))) as (w2 & m2 & E); [rewrite S; exact On|].
  rewrite E. cbn [fst o_kind o_seed o_memory]. rewrite K, S. cbn [snd]. eexists. reflexivity.
Qed.
(** No seed. *)
Theorem no_seed k n a h0 (st : state) : exists l, fst (results (h0 ++ [build n k None; evolute n a]) st) = l ++ [fst (fst (run k (fresh k) a (snd (snd (results h0 st)))))].
Proof.
  change [build n k None; evolute n a] with ([build n k None] ++ [evolute n a]). rewrite app_assoc.
  destruct (last_run (h0 ++ [build n k None]) n a st (mkObj M k None (fresh k))) as (w2 & m2 & E); [rewrite built; apply put_same|].
  rewrite E. cbn [fst o_kind o_seed o_memory]. rewrite built. cbn [SD_Model.results snd set_neorl_seed]. destruct (reseeds k); eexists; reflexivity.
Qed.
End P.
(** Two runs: an algorithm that returns its first draw. *)
Definition counting (k : kind) (m : unit) (a : unit) (w : nat * nat) : nat * unit * (nat * nat) := (fst w, tt, (S (fst w), snd w)).
Theorem run_twice : exists run : kind -> unit -> unit -> nat * nat -> nat * unit * (nat * nat), forall k n s st,
  exists r1 r2, fst (results nat nat (fun s => s) (fun s => s) unit unit nat (fun _ => tt) run [Build nat nat unit n k (Some s); Evolute nat nat unit n tt; Evolute nat nat unit n tt] st) = [r1; r2] /\
  (r1 = r2 <-> In k seeding_runs).
Proof.
  exists counting. intros k n s [os w]. cbn [results step]. rewrite put_same. cbn [o_kind o_seed o_memory counting]. cbn [results step]. rewrite put_same. cbn [o_kind o_seed o_memory counting fst].
  destruct (reseeds k) eqn:E; cbn [set_neorl_seed fst snd].
  - exists s, s. split; [reflexivity|]. apply reseeds_iff in E. tauto.
  - exists s, (S s). split; [reflexivity|]. split; [lia|]. intros H. apply reseeds_iff in H. congruence.
Qed.
