(** C139: seeds of optimizers. *)
From Coq Require Import List Arith Bool.
From Verif Require Import SD_Model SD_Spec SD_Proofs.
Import ListNotations.

(** C139: set_neorl_seed with a seed, zero included, puts both generators into states that depend on it only; with None it does nothing. *)
Theorem C139_seeded : forall P N pseed nseed, (forall s w w', set_neorl_seed P N pseed nseed (Some s) w = set_neorl_seed P N pseed nseed (Some s) w') /\ forall w, set_neorl_seed P N pseed nseed None w = w.
Proof. exact seeded. Qed.
Print Assumptions C139_seeded.
(** C139: the result of the first run of DE, MFO, JAYA, HHO, NHHO or NGA with a seed depends on seed and argument only, whatever was done before
    and since the construction. *)
Theorem C139_every : forall P N pseed nseed M A Res fresh run k n s a h0 h st, In k seeding_runs -> Forall (elsewhere n) h ->
  exists l, fst (results P N pseed nseed M A Res fresh run ((h0 ++ Build P N A n k (Some s) :: h) ++ [Evolute P N A n a]) st) = l ++ [fst (fst (run k (fresh k) a (pseed s, nseed s)))].
Proof. exact every_run. Qed.
Print Assumptions C139_every.
(** C139: so do later runs, if results do not depend on what the object remembers of runs before. *)
Theorem C139_again : forall P N pseed nseed M A Res fresh run k n s a h0 h st, In k seeding_runs -> (forall m w, fst (fst (run k m a w)) = fst (fst (run k (fresh k) a w))) -> Forall (keeps n) h ->
  exists l, fst (results P N pseed nseed M A Res fresh run ((h0 ++ Build P N A n k (Some s) :: h) ++ [Evolute P N A n a]) st) = l ++ [fst (fst (run k (fresh k) a (pseed s, nseed s)))].
Proof. exact every_run_again. Qed.
Print Assumptions C139_again.
(** C139: of every optimizer, a run directly after the construction depends on seed and argument only. *)
Theorem C139_first : forall P N pseed nseed M A Res fresh run k n s a h0 st,
  exists l, fst (results P N pseed nseed M A Res fresh run (h0 ++ [Build P N A n k (Some s); Evolute P N A n a]) st) = l ++ [fst (fst (run k (fresh k) a (pseed s, nseed s)))].
Proof. exact first_run. Qed.
Print Assumptions C139_first.
(** C139, finding: if another optimizer is built before the run, all others (ES, PSO, GWO, ...) run with its seed and not with their own. *)
Theorem C139_built_refuted : forall P N pseed nseed M A Res fresh run k n s k' n' s' a h0 st, ~ In k seeding_runs -> n' <> n ->
  exists l, fst (results P N pseed nseed M A Res fresh run (h0 ++ [Build P N A n k (Some s); Build P N A n' k' (Some s'); Evolute P N A n a]) st) = l ++ [fst (fst (run k (fresh k) a (pseed s', nseed s')))].
Proof. exact built_between. Qed.
Print Assumptions C139_built_refuted.
(** C139, finding: and if DE, MFO, JAYA, HHO, NHHO or NGA runs before, they go on with what it left of its seed. *)
Theorem C139_run_refuted : forall P N pseed nseed M A Res fresh run k n s k' n' s' a a' f h0 st, ~ In k seeding_runs -> In k' seeding_runs -> n' <> n ->
  exists l, fst (results P N pseed nseed M A Res fresh run (h0 ++ [Build P N A n' k' (Some s'); Build P N A n k (Some s); Elsewhere P N A f; Evolute P N A n' a'; Evolute P N A n a]) st) =
    l ++ [fst (fst (run k (fresh k) a (snd (run k' (fresh k') a' (pseed s', nseed s')))))].
Proof. exact run_between. Qed.
Print Assumptions C139_run_refuted.
(** C139, finding: a second run of the same object need not repeat the first: of an algorithm that returns its first draw two runs agree
    exactly if the object is one of DE, MFO, JAYA, HHO, NHHO and NGA. *)
Theorem C139_twice_refuted : exists run : kind -> unit -> unit -> nat * nat -> nat * unit * (nat * nat), forall k n s st,
  exists r1 r2, fst (results nat nat (fun s => s) (fun s => s) unit unit nat (fun _ => tt) run [Build nat nat unit n k (Some s); Evolute nat nat unit n tt; Evolute nat nat unit n tt] st) = [r1; r2] /\
  (r1 = r2 <-> In k seeding_runs).
Proof. exact run_twice. Qed.
Print Assumptions C139_twice_refuted.
(** C139: without a seed a run goes on with the generators as they are. *)
Theorem C139_none : forall P N pseed nseed M A Res fresh run k n a h0 st,
  exists l, fst (results P N pseed nseed M A Res fresh run (h0 ++ [Build P N A n k None; Evolute P N A n a]) st) = l ++ [fst (fst (run k (fresh k) a (snd (snd (results P N pseed nseed M A Res fresh run h0 st)))))].
Proof. exact no_seed. Qed.
Print Assumptions C139_none.
