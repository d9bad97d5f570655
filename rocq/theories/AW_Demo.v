(** A game of three steps with two lives. *)
From Coq Require Import List Arith ZArith QArith Bool Lia.
From Verif Require Import AW_Model AW_Spec AW_Proofs.
Import ListNotations.
Open Scope nat_scope.
Ltac go := repeat first [apply run_nil | eapply run_reset; [reflexivity|] | eapply run_step; [reflexivity|]].
Definition game : env nat nat nat := mkEnv (fun s => Some (0, 0)) (fun s a => Some (s + 1, (inject_Z (Z.of_nat s) - 1)%Q, s + 1 =? 3, s + 1)).
Definition left_lives (s : nat) : Z := if s <=? 1 then 2%Z else if s =? 2 then 1%Z else 0%Z.
(** Four no-ops: the third ends the game. *)
Example demo_noop : noop_reset game 0 (fun _ => 4) 7 = Some (1, 1). Proof. reflexivity. Qed.
Example demo_noop_end : noop_reset game 0 (fun _ => 3) 7 = Some (0, 0). Proof. reflexivity. Qed.
Example demo_noop_none : noop_reset game 0 (fun _ => 0) 7 = None. Proof. reflexivity. Qed.
Example demo_fire : fire_reset game 1 2 5 = Some (2, 2). Proof. reflexivity. Qed.
(** A game that the second action ends: the frame of the finished game is answered. *)
Definition short : env nat nat nat := mkEnv (fun s => Some (0, 0)) (fun s a => Some (s + 1, 0%Q, s + 1 =? 2, s + 1)).
Example demo_fire_end : fire_reset short 1 2 5 = Some (2, 0). Proof. reflexivity. Qed.
(** A lost life ends an episode, the next reset plays on. *)
Example demo_life : exists w, run (life_env game 0 left_lives) (life_init 9) [Rst 0; Stp 5 1 (0 - 1)%Q false; Stp 5 2 (1 - 1)%Q true; Rst 3] w /\ w = (3, 0%Z, false).
Proof. eexists. split; [go|reflexivity]. Qed.
(** Here the no-op after the lost life ended the game: the next step is made on a finished game. *)
Example demo_life_illegal : exists w, run (life_env (recorded game) 0 (fun w => left_lives (fst w))) (life_init (9, [])) [Rst 0; Stp 5 1 (0 - 1)%Q false; Stp 5 2 (1 - 1)%Q true; Rst 3; Stp 5 4 (3 - 1)%Q false] w /\ ~ legal true (snd (fst (fst w))).
Proof. eexists. split; [go|]. cbn [fst snd app legal]. intros (_ & _ & _ & H & _). discriminate. Qed.
(** A game where it does not. *)
Definition long : env nat nat nat := mkEnv (fun s => Some (0, 0)) (fun s a => Some (s + 1, 0%Q, (s + 1 =? 5) && negb (a =? 0), s + 1)).
Definition long_lives (s : nat) : Z := if s <=? 1 then 2%Z else 1%Z.
Example demo_life_legal : exists w, run (life_env (recorded long) 0 (fun w => long_lives (fst w))) ((9, []), 0%Z, true) [Rst 0; Stp 5 1 0%Q false; Stp 5 2 0%Q true; Rst 3; Stp 5 4 0%Q false; Stp 5 5 0%Q true; Rst 0] w /\ legal true (snd (fst (fst w))).
Proof.
  assert (R : exists w, run (life_env (recorded long) 0 (fun w => long_lives (fst w))) ((9, []), 0%Z, true) [Rst 0; Stp 5 1 0%Q false; Stp 5 2 0%Q true; Rst 3; Stp 5 4 0%Q false; Stp 5 5 0%Q true; Rst 0] w) by (eexists; go).
  destruct R as ([[[s log] l] real] & R). exists (s, log, l, real). split; [exact R|]. apply (life_legal long 0 long_lives) in R; [exact R| |cbn; tauto].
  intros s0 o r d s' _ H. cbn in H. injection H as _ _ <- _. now rewrite andb_false_r.
Qed.
Example demo_skip : skip_step game Nat.max 3 (0, (0, 0)) 5 = Some (3, (0 + (0 - 1) + (1 - 1) + (2 - 1))%Q, true, (3, (2, 3))). Proof. reflexivity. Qed.
(** An early end answers old frames. *)
Example demo_skip_stale : exists r, skip_step game Nat.max 4 (1, (9, 8)) 5 = Some (9, r, true, (3, (9, 8))). Proof. eexists. reflexivity. Qed.
Example demo_stack : exists w, run (stack_env game 3) (9, []) [Rst [0; 0; 0]; Stp 5 [0; 0; 1] (0 - 1)%Q false; Stp 5 [0; 1; 2] (1 - 1)%Q false] w. Proof. eexists. go. Qed.
Example demo_repeats : repeats 5 3 [Stp 5 1 0%Q false; Stp 5 2 0%Q true] true.
Proof. exists [Stp 5 1 0%Q false], (Stp 5 2 0%Q true). split; [reflexivity|]. split; [repeat constructor; repeat eexists|]. split; [cbn; lia|]. split; [repeat constructor|]. split; reflexivity. Qed.
Example demo_warp : warp_shape [210; 160; 3] = Some [210; 160; 1; 3]. Proof. reflexivity. Qed.
