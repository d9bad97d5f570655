(** Cards that meet the hypotheses of the theorems about the annealing agent. *)
Require Import List ZArith Arith Lia Bool Reals Lra.
Require Import Verif.SR_Model Verif.SR_Spec Verif.SR_Proofs Verif.SR_Reports Verif.SR_Moves Verif.SR_Runs
  Verif.SR_Final.
Import ListNotations.

(** Two coordinates in [0..1] and [0..3], three steps, a report every second step. *)
Definition demo_card (w : swap) (n : nat) (lb ub : list Z) : card :=
  mkCard 100 1 3 w 2 (Some lb) (Some ub) (1 / 2) Fast n None (1 / 2) (map (fun k => repeat (Z.of_nat k) n) [0; 1; 1]).
Definition demo_draw : draw :=
  mkDraw 1 0 (fun k => (Z.of_nat k / 2, Z.of_nat k)%Z) (fun k => (INR k / 2)%R) Z.of_nat 0 1 (1 / 2).
Definition demo_D (k : nat) : draw := demo_draw.

Lemma demo_bounds : forall w n lb ub i lo hi, bounds_at (demo_card w n lb ub) i lo hi -> lb = [0; 0]%Z -> ub = [1; 3]%Z ->
  (lo = 0 /\ (hi = 1 \/ hi = 3))%Z.
Proof.
  intros w n lb ub i lo hi (lb' & ub' & A1 & A2 & A3) -> ->. cbn in A1, A2. injection A1 as <-. injection A2 as <-.
  destruct A3 as [(A3 & _)|(_ & A3 & A4)]; [discriminate|].
  destruct i as [|[|i]]; cbn in A3, A4.
  - injection A3 as <-. injection A4 as <-. auto.
  - injection A3 as <-. injection A4 as <-. auto.
  - destruct i; discriminate.
Qed.

Lemma demo_good : forall w, good_bounds (demo_card w 2 [0; 0]%Z [1; 3]%Z).
Proof.
  intros w. exists [0; 0]%Z, [1; 3]%Z. cbn. repeat split; auto.
  intros [|[|[|i]]] lo hi H1 H2; cbn in *; try discriminate; injection H1 as <-; injection H2 as <-; lia.
Qed.

Lemma demo_avoiding : forall w, avoiding 4 (demo_card w 2 [0; 0]%Z [1; 3]%Z) demo_D.
Proof.
  intros w step i j lo hi lo' hi' a b H1 H2.
  apply demo_bounds in H1; try reflexivity. apply demo_bounds in H2; try reflexivity.
  destruct H1 as (-> & H1), H2 as (-> & H2). unfold demo_D, demo_draw, value_of. cbn [d_pairs fst snd].
  destruct (Z.eq_dec a 0) as [Ha|Ha].
  - destruct (Z.eq_dec b (0 + Z.of_nat 2 mod (hi' + 1 - 0))) as [Hb|Hb].
    + exists 3. split; [lia|]. destruct H1 as [-> | ->], H2 as [-> | ->]; cbn in *; lia.
    + exists 2. split; [lia|]. destruct H1 as [-> | ->], H2 as [-> | ->]; cbn in *; lia.
  - destruct (Z.eq_dec b 0) as [Hb|Hb].
    + exists 1. split; [lia|]. destruct H1 as [-> | ->], H2 as [-> | ->]; cbn in *; lia.
    + exists 0. split; [lia|]. destruct H1 as [-> | ->], H2 as [-> | ->]; cbn in *; lia.
Qed.

(** Runs of every kind of move exist. *)
Example demo_single : runnable 4 (demo_card Single 2 [0; 0]%Z [1; 3]%Z) demo_D.
Proof. repeat split; try (exact (demo_good _)); try discriminate; cbn; auto; apply demo_avoiding. Qed.
Example demo_dual : runnable 4 (demo_card Dual 2 [0; 0]%Z [1; 3]%Z) demo_D.
Proof. repeat split; try (exact (demo_good _)); try discriminate; cbn; auto; apply demo_avoiding. Qed.
Example demo_full : runnable 4 (demo_card Full 2 [0; 0]%Z [1; 3]%Z) demo_D.
Proof. repeat split; try (exact (demo_good _)); discriminate. Qed.
Example demo_kbs : runnable 4 (demo_card Kbs 2 [0; 0]%Z [1; 3]%Z) demo_D.
Proof.
  repeat split; try (exact (demo_good _)); try discriminate.
  intros r [<-|[<-|[<-|[]]]]; reflexivity.
Qed.
Example demo_kbs_box : forall r, In r (c_rows (demo_card Kbs 2 [0; 0]%Z [1; 3]%Z)) ->
  in_box (demo_card Kbs 2 [0; 0]%Z [1; 3]%Z) r /\ length r = 2.
Proof.
  assert (B0 : bounds_at (demo_card Kbs 2 [0; 0]%Z [1; 3]%Z) 0 0 1).
  { exists [0; 0]%Z, [1; 3]%Z. repeat split; auto. right. cbn. repeat split; auto; lia. }
  assert (B1 : bounds_at (demo_card Kbs 2 [0; 0]%Z [1; 3]%Z) 1 0 3).
  { exists [0; 0]%Z, [1; 3]%Z. repeat split; auto. right. cbn. repeat split; auto; lia. }
  intros r Hr. split; [|destruct Hr as [<-|[<-|[<-|[]]]]; reflexivity].
  intros [|[|i]] v Hv.
  - exists 0%Z, 1%Z. split; [exact B0|]. destruct Hr as [<-|[<-|[<-|[]]]]; cbn in Hv; injection Hv as <-; lia.
  - exists 0%Z, 3%Z. split; [exact B1|]. destruct Hr as [<-|[<-|[<-|[]]]]; cbn in Hv; injection Hv as <-; lia.
  - destruct Hr as [<-|[<-|[<-|[]]]]; cbn in Hv; destruct i; discriminate.
Qed.
Example demo_quad : runnable 4 (demo_card Quad 4 [0; 0; 0; 0]%Z [1; 3; 1; 1]%Z) demo_D.
Proof.
  repeat split; try discriminate.
  - exists [0; 0; 0; 0]%Z, [1; 3; 1; 1]%Z. cbn. repeat split; auto.
    intros [|[|[|[|[|i]]]]] lo hi H1 H2; cbn in *; try discriminate; injection H1 as <-; injection H2 as <-; lia.
  - cbn. lia.
  - intros lb H. cbn in H. injection H as <-. reflexivity.
Qed.
(** One range for both coordinates. *)
Example demo_one : runnable 4 (demo_card Full 2 [0]%Z [1]%Z) demo_D.
Proof.
  repeat split; try discriminate. exists [0]%Z, [1]%Z. cbn. repeat split; auto.
  intros [|[|i]] lo hi H1 H2; cbn in *; try discriminate; injection H1 as <-; injection H2 as <-; lia.
Qed.
(** The move after the third goes unreported with a report every third step. *)
Example demo_freq : S (c_steps (demo_card Single 2 [0; 0]%Z [1; 3]%Z)) mod 3 <> 0.
Proof. discriminate. Qed.
(** Temperatures from 100 to 1. *)
Example demo_temps : let c := demo_card Full 2 [0; 0]%Z [1; 3]%Z in
  (0 < c_tmin c)%R /\ (c_tmin c < c_tmax c)%R /\ c_steps c <> 0.
Proof. cbn. repeat split; try lra. discriminate. Qed.
(** Ranges of one number. *)
Example demo_constant : let c := demo_card Single 2 [1; 3]%Z [1; 3]%Z in
  good_bounds c /\ c_start c = None /\ c_cooling c <> OtherCooling /\ 2 <= c_size c /\ c_lb c = c_ub c.
Proof.
  repeat split; try discriminate; try (cbn; lia). exists [1; 3]%Z, [1; 3]%Z. cbn. repeat split; auto.
  intros [|[|[|i]]] lo hi H1 H2; cbn in *; try discriminate; injection H1 as <-; injection H2 as <-; lia.
Qed.
