(** Cases that meet the hypotheses of C119. *)
From Coq Require Import String List Arith Bool Lia.
From Verif Require Import WR_Model WR_Spec WR_Proofs.
Import ListNotations.
Open Scope list_scope. Open Scope nat_scope. Open Scope string_scope.

(** VecFrameStack around VecNormalize around DummyVecEnv. *)
Definition dummy : object nat := Obj KOther "DummyVecEnv" [("envs", 1); ("num_envs", 2)] [("reset", 3)].
Definition norm (r : nat) : object nat := Obj KNorm "VecNormalize" [("class_attributes", 0); ("obs_rms", r); ("ret_rms", S r); ("training", 5); ("num_envs", 2)] [("reset", 3)].
Definition stack : object nat := Obj KOther "VecFrameStack" [("class_attributes", 0); ("stackedobs", 6); ("num_envs", 2)] [("reset", 3)].
Definition env1 : env nat := Wrap stack (Wrap (norm 10) (Base dummy)).
Example built1 : built env1.
Proof. intros o [<-|[<-|[]]]; discriminate. Qed.
Example enough1 : enough 6 env1.
Proof. unfold enough; cbn; lia. Qed.
Example get1 : getattr 6 env1 "training" = Value 5 /\ getattr 6 env1 "envs" = Value 1 /\ getattr 6 env1 "num_envs" = Value 2 /\ getattr 6 env1 "x" = Missing.
Proof. repeat split. Qed.
(** A second VecNormalize hides the first. *)
Definition env2 : env nat := Wrap stack (Wrap (norm 10) (Wrap (norm 20) (Base dummy))).
Example get2 : getattr 7 env2 "training" = Ambiguous "VecFrameStack" "VecNormalize".
Proof. reflexivity. Qed.
(** Setting on the outer wrapper. *)
Example set1 : getattr 6 (setattr env1 "training" 9) "training" = Value 9 /\ objects (setattr env1 "training" 9) = [set_obj "training" 9 stack; norm 10; dummy].
Proof. split; reflexivity. Qed.
Example set2 : getattr 7 (Wrap stack (setattr (Wrap stack (Wrap (norm 10) (Base dummy))) "training" 9)) "training" = Ambiguous "VecFrameStack" "VecNormalize".
Proof. reflexivity. Qed.
(** Syncing. *)
Definition eval1 : env nat := Wrap stack (Wrap (norm 30) (Base dummy)).
Definition eval2 : env nat := Wrap (norm 30) (Wrap stack (Base dummy)).
Example normal1 : normal env1.
Proof. intros o [<-|[<-|[]]] H; [discriminate|]. exists 10, 11. reflexivity. Qed.
Example sync1 : map (fun o => fst (stats o)) (wrappers (fst (sync env1 eval1))) = [None; Some 10] /\ snd (sync env1 eval1) = true.
Proof. split; reflexivity. Qed.
Example sync2 : map (fun o => fst (stats o)) (wrappers (fst (sync env1 eval2))) = [Some 30; Some 10] /\ snd (sync env1 eval2) = true.
Proof. split; reflexivity. Qed.
Example sync3 : snd (sync env1 (Wrap (norm 30) (Base dummy))) = false.
Proof. reflexivity. Qed.
(** Saving. *)
Definition v1 : venv := Venv 1 4 [3] [2].
Definition v2 : venv := Venv 2 8 [3] [2].
Definition v3 : venv := Venv 3 8 [5] [2].
Definition vn1 : dict val := new v1 7 [("gamma", Other 99); ("old_obs", Other 5)].
Example save1 : exists s, getstate vn1 = inl s /\ snd (load s v2) = None /\ dget "gamma" (fst (load s v2)) = Some (Other 99) /\ dget "ret" (fst (load s v2)) = Some (Zeros 8)
  /\ snd (load s v3) = Some Incompatible.
Proof. eexists. repeat split. Qed.
Example first1 : unwrap_vec_normalize env1 = Some (norm 10).
Proof. reflexivity. Qed.

(** Witnesses. *)
Lemma hasattr_witness : exists (e : env nat) n f, built e /\ enough f e /\ owners n e <> [] /\ (forall v, getattr f e n <> Value v).
Proof.
  exists env2, "training", 7. repeat split; [|unfold enough; cbn; lia|discriminate|discriminate].
  intros o [<-|[<-|[<-|[]]]]; discriminate.
Qed.
Lemma set_witness : exists (e : env nat) n v p, built e /\ In p (wrappers e) /\ kind_of p = KNorm /\ dget n (own p) <> None /\
  (forall f, enough f e -> getattr f e n <> Missing /\ exists w, getattr f e n = Value w) /\ In p (wrappers (setattr e n v)) /\ dget n (own p) <> Some v.
Proof.
  exists env1, "training", 9, (norm 10). split; [exact built1|]. repeat split; try (right; left; reflexivity); try discriminate.
  - rewrite getattr_ok by (auto using built1). discriminate.
  - exists 5. rewrite getattr_ok by (auto using built1). reflexivity.
Qed.
Lemma sync_witness : exists (t e : env nat), built t /\ built e /\ normal t /\ normal e /\ snd (sync t e) = true /\
  (exists o p, unwrap_vec_normalize t = Some o /\ unwrap_vec_normalize (fst (sync t e)) = Some p /\ stats p <> stats o) /\
  length (filter (fun o => match kind_of o with KNorm => true | _ => false end) (wrappers e)) = 1.
Proof.
  exists env1, eval2. split; [exact built1|]. split; [intros o [<-|[<-|[]]]; discriminate|]. split; [exact normal1|].
  split; [intros o [<-|[<-|[]]] H; [exists 30, 31; reflexivity|discriminate]|].
  split; [reflexivity|]. split; [|reflexivity].
  eexists _, _. repeat split. cbn. discriminate.
Qed.
Example unpickled1 : exists s, getstate vn1 = inl s /\ dget "ret" (setstate s ++ [])%list = None.
Proof. eexists. split; reflexivity. Qed.
