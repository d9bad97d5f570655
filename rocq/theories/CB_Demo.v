(** Instances of the hypotheses of the theorems about callbacks, and the regular checkpoints. *)
From Coq Require Import List Arith ZArith QArith Bool Lia.
From Verif Require Import Base CB_Model CB_Spec CB_Proofs CB_Every CB_Eval CB_Total.
Import ListNotations.
Open Scope nat_scope.

Lemma flat_filter {A B} (p : A -> bool) (g : A -> B) l : flat_map (fun x => if p x then [g x] else []) l = map g (filter p l).
Proof. induction l as [|a r IH]; [reflexivity|]. simpl. destruct (p a); simpl; rewrite IH; reflexivity. Qed.
Lemma flat_map_map' {A B C} (g : A -> B) (h : B -> list C) l : flat_map h (map g l) = flat_map (fun x => h (g x)) l.
Proof. induction l as [|a r IH]; [reflexivity|]. simpl. rewrite IH. reflexivity. Qed.

Lemma checkpoint_regular ans ev id f e n : 1 <= f ->
  exists out, calls ans ev (Checkpoint id f 0) (steps_of e n) = Some (Checkpoint id f n, out) /\
    flat_map fst out = map (fun i => ESave id (e * (f * S i))) (seq 0 (n / f)) /\ Forall (fun o => snd o = Go) out.
Proof.
  intros Hf. destruct (checkpoint_calls ans ev id f 0 (steps_of e n) ltac:(lia)) as (out & E & H).
  rewrite steps_length in E. exists out. split; [exact E|].
  assert (Eo : out = map (fun j => (if S j mod f =? 0 then [ESave id (e * S j)] else [], Go)) (seq 0 n)).
  { apply list_ext.
    - rewrite (calls_length _ _ _ _ _ _ E), map_length, seq_length, steps_length. reflexivity.
    - intros j Hj. rewrite (calls_length _ _ _ _ _ _ E), steps_length in Hj. rewrite (H j _ (nth_steps e n j Hj)).
      rewrite nth_error_map. rewrite (nth_error_nth' (seq 0 n) 0) by (rewrite seq_length; exact Hj). rewrite seq_nth by exact Hj. reflexivity. }
  rewrite Eo. split.
  - rewrite flat_map_map'. simpl fst. rewrite (flat_filter (fun j => S j mod f =? 0) (fun j => ESave id (e * S j))).
    rewrite mult_filter by exact Hf. rewrite map_map. apply map_ext. intros i. do 2 f_equal. nia.
  - apply Forall_forall. intros o Ho. apply in_map_iff in Ho. destruct Ho as (j & <- & _). reflexivity.
Qed.

Lemma overwrite_bad : exists f n1 n2 c1 c2 out1 out2 ts, 1 <= f /\ (forall ans ev, calls ans ev (Checkpoint 0 f 0) (steps_of 1 n1) = Some (c1, out1) /\
  calls ans ev c1 (steps_of 1 n2) = Some (c2, out2)) /\ In (ESave 0 ts) (flat_map fst out1) /\ In (ESave 0 ts) (flat_map fst out2).
Proof. exists 2, 4, 3. do 4 eexists. exists 2. split; [lia|]. split; [intros; split; reflexivity|]. simpl. auto. Qed.

(** A list of a user callback, a checkpoint, an EveryNTimesteps and an evaluation with a threshold,
    with the evaluation giving 1, 3, 2, ... *)
Definition demo_ev (_ n : nat) : Q := match n with 2 => 1%Q | 4 => 3%Q | _ => 2%Q end.
Definition demo_list : list cb := [User 0 0; Checkpoint 1 2 0; Every 3 0 0 (User 2 0); Eval 3 2 0 None (Some (StopAbove 3 0))].
Example demo_sound : sound (Chain 0 demo_list).
Proof. simpl. repeat split; lia. Qed.
Example demo_calls : exists c' out, calls (fun _ _ => Go) demo_ev (Chain 0 demo_list) (steps_of 1 4) = Some (c', out) /\
  nth_error out 3 = Some ([ECall 0 4 4; ESave 1 4; EEval 3 4 3; EBest 3 4], Stop) /\ nth_error out 2 = Some ([ECall 0 3 3; ECall 2 1 3], Go) /\
  stopped_at out 3.
Proof.
  do 2 eexists. split; [reflexivity|]. split; [reflexivity|]. split; [reflexivity|]. split; [eexists; reflexivity|].
  intros i o Hi. do 3 (destruct i as [|i]; [intros [= <-]; simpl; intros X; inversion X|]). lia.
Qed.
Example demo_every : exists c' out, calls (fun _ _ => Go) demo_ev (Every 5 0 0 (User 0 0)) (steps_of 2 7) = Some (c', out) /\
  map fst out = [[]; []; [ECall 0 1 6]; []; []; [ECall 0 2 12]; []].
Proof. do 2 eexists. split; reflexivity. Qed.
Example demo_second : exists c' out, calls (fun _ _ => Go) demo_ev (Every 5 0 0 (User 0 0)) (steps_of 2 7 ++ steps_of 2 7) = Some (c', out) /\
  flat_map fst out = [ECall 0 1 6; ECall 0 2 12].
Proof. do 2 eexists. split; reflexivity. Qed.
Example demo_eval : exists c' out, calls (fun _ _ => Go) demo_ev (Eval 3 2 0 None (Some (User 4 0))) (steps_of 1 6) = Some (c', out) /\
  flat_map fst out = [EEval 3 2 1; EBest 3 2; ECall 4 1 2; EEval 3 4 3; EBest 3 4; ECall 4 2 4; EEval 3 6 2].
Proof. do 2 eexists. split; reflexivity. Qed.
Example demo_threshold : exists c' out, calls (fun _ _ => Go) demo_ev (Eval 3 2 0 None (Some (StopAbove 3 0))) (steps_of 1 6) = Some (c', out) /\ map snd out = [Go; Go; Go; Stop; Go; Go].
Proof. do 2 eexists. split; reflexivity. Qed.

(** Signals with a user callback inside and one outside. *)
Example demo_signals : let c := Chain 0 [User 1 0; Every 5 0 0 (User 2 0); Checkpoint 3 1 0; Eval 4 1 0 None (Some (Chain 0 [User 5 0]))] in
  notify TrainingStart c = [ESignal 1 TrainingStart; ESignal 2 TrainingStart; ESignal 5 TrainingStart] /\ users c = [1; 2; 5] /\ outer c = [1].
Proof. repeat split; reflexivity. Qed.
