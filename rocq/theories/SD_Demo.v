(** Cases that meet the hypotheses. *)
From Coq Require Import List Arith Bool Lia.
From Verif Require Import SD_Model SD_Spec SD_Proofs.
Import ListNotations.

(** DE is built, something else is built and run, the user draws, and DE is run. *)
Definition d_between : list (event nat nat unit) := [Build nat nat unit 2 PSO (Some 9); Evolute nat nat unit 2 tt; Elsewhere nat nat unit (fun w => (7, snd w))].
Example demo_every : In DE seeding_runs /\ Forall (elsewhere 1) d_between /\ Forall (keeps 1) (Evolute nat nat unit 1 tt :: d_between) /\ (forall m w, fst (fst (counting DE m tt w)) = fst (fst (counting DE tt tt w))).
Proof. split; [now left|]. split; [repeat constructor; discriminate|]. split; [repeat constructor; discriminate|reflexivity]. Qed.
Example demo_other : ~ In GWO seeding_runs /\ In JAYA seeding_runs /\ 2 <> 1.
Proof. split; [|split; [simpl; tauto|lia]]. simpl. intuition discriminate. Qed.
(** GWO with seed 5 draws what PSO's seed gives. *)
Example demo_run : fst (results nat nat (fun s => s) (fun s => s) unit unit nat (fun _ => tt) counting (Build nat nat unit 1 GWO (Some 5) :: d_between ++ [Evolute nat nat unit 1 tt]) (fun _ => None, (0, 0))) = [9; 7].
Proof. reflexivity. Qed.
