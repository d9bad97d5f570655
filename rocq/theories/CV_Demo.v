(** Concrete cases that meet the hypotheses of the theorems about convolutional features. *)
From Coq Require Import Reals List Arith Bool Lia Lra.
From Verif Require Import CV_Model CV_Spec CV_Proofs.
Import ListNotations.
Open Scope list_scope.
Open Scope nat_scope.

(** The frames of games are 84 by 84 with four channels: 7 by 7 places, 3136 numbers; all pixels are seen. *)
Definition frame : image := Img 84 84 4 (fun i j k => INR (i + j + k)).
Example frame_ok : 36 <= hh frame /\ 36 <= ww frame /\ places (hh frame) = 7 /\ places (hh frame) * places (ww frame) * 64 = 3136 /\ seen (hh frame) = 84.
Proof. vm_compute. lia. Qed.
(** Of 100 by 91 pixels the columns from 84 on are not seen. *)
Definition wide : image := Img 100 91 3 (fun i j k => INR i).
Definition wide' : image := Img 100 91 3 (fun i j k => if 84 <=? j then 7%R else INR i).
Example wide_ok : same_size wide wide' /\ seen (hh wide) = 100 /\ seen (ww wide) = 84 /\ agree wide wide' 0 (seen (hh wide)) 0 (seen (ww wide)) /\ px wide 0 90 0 <> px wide' 0 90 0.
Proof.
  assert (E : seen (ww wide) = 84) by reflexivity. split; [repeat split|]. split; [reflexivity|]. split; [exact E|]. split.
  - intros i j k _ [_ J] _. rewrite E in J. unfold wide, wide', px. apply Nat.leb_gt in J. rewrite J. reflexivity.
  - simpl. lra.
Qed.
(** A place, and a window of the frame that starts 16 rows and 8 columns later. *)
Example place_ok : 3 < places (hh frame) /\ 6 < places (ww frame) /\ 60 + 8 * 2 <= hh frame /\ 70 + 8 * 1 <= ww frame /\ 36 <= hh (window (8 * 2) (8 * 1) 60 70 frame).
Proof. vm_compute. lia. Qed.
Definition zero_params : params := Params (fun _ _ _ _ => 0%R) (fun _ => 1%R) (fun _ _ _ _ => 0%R) (fun _ => 1%R) (fun _ _ _ _ => 0%R) (fun _ => 1%R) (fun _ _ => 0%R) (fun _ => 2%R).
Example layers_ok : (exists y, layers zero_params frame = Returns y) /\ (exists v, nature_cnn zero_params wide = Returns v) /\ exists z, layers zero_params (window (8 * 2) (8 * 1) 60 70 frame) = Returns z.
Proof.
  split; [|split].
  - destruct (layers_size zero_params frame) as (y & E & _); [simpl; lia|simpl; lia|]. eauto.
  - apply cnn_accepts. simpl. lia.
  - destruct (layers_size zero_params (window (8 * 2) (8 * 1) 60 70 frame)) as (y & E & _); [simpl; lia|simpl; lia|]. eauto.
Qed.
(** Filters of 2 by 3, a list of one number, and a width of 32 with 32 filters. *)
Example filters_ok : filter_size (inr [2; 3]) = Returns (2, 3) /\ length [8] <> 2 /\ (ww (Img 40 35 1 (fun _ _ _ => 0%R)) - 4) / 1 + 1 = 32 /\ 4 <= 40 /\ (10 - 4) / 2 + 1 <> 32.
Proof. simpl. repeat split; lia. Qed.
(** Where a centred filter of 3 does not pass the border of 5 by 5 pixels. *)
Example centred_ok : 1 = (3 - 1) / 2 /\ 1 <= 2 /\ 2 + 3 <= 5 + 1.
Proof. simpl. lia. Qed.
