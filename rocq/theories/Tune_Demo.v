(** Concrete tuning problems meeting the hypotheses of the theorems. *)
From Coq Require Import String List Arith ZArith QArith Bool Lia Lqa Permutation.
From Verif Require Import Base BaseFacts Space_Model Space_Spec Opt_Model Env_Model Env_Spec Tune_Model Tune_Spec Tune_Proofs.
Import ListNotations.
Open Scope nat_scope.

Definition tn_grid : list (string * list val) :=
  [("x1", [VNum 1; VNum 2]); ("x2", [VStr "a"; VStr "b"; VStr "c"])]%string.
Definition tn_fit (x : list val) : option Q :=
  match x with [VNum q; VStr s] => if String.eqb s "b" then None else Some (q + 1)%Q | _ => Some 9%Q end.

Example tn_cases : grid_cases tn_grid =
  [[VNum 1; VStr "a"]; [VNum 1; VStr "b"]; [VNum 1; VStr "c"]; [VNum 2; VStr "a"]; [VNum 2; VStr "b"]; [VNum 2; VStr "c"]]%string.
Proof. reflexivity. Qed.
Example tn_serial : fst (serial tn_fit (map fst tn_grid) (grid_cases tn_grid)) =
  [CScore (1 + 1); CFailed 2; CScore (1 + 1); CScore (2 + 1); CFailed 5; CScore (2 + 1)]%Q.
Proof. reflexivity. Qed.
Example tn_names : NoDup (map fst tn_grid) /\ ~ In "id"%string (map fst tn_grid) /\ ~ In "score"%string (map fst tn_grid).
Proof. unfold tn_grid. simpl. split; [repeat constructor; simpl; intuition discriminate|]. split; intuition discriminate. Qed.
Example tn_par : fst (parallel tn_fit (map fst tn_grid) (grid_cases tn_grid) [5; 0; 3; 1; 4; 2]) =
  Some [CScore (1 + 1); CFailed 2; CScore (1 + 1); CScore (2 + 1); CFailed 5; CScore (2 + 1)]%Q.
Proof. reflexivity. Qed.
Example tn_pos : positions (map snd tn_grid) [1; 2] /\ rank (map snd tn_grid) [1; 2] = 5.
Proof. split; [repeat constructor|reflexivity]. Qed.

Definition tn_rgrid : list (string * rtype) := [("a", RInt 1 4); ("b", RFloat 0 (1 # 2)); ("c", RGrid [VStr "u"; VStr "v"])]%string.
Definition tn_randint (t : nat) (lo hi : Z) : Z := hi.
Definition tn_uniform (t : nat) (a b : Q) : Q := a.
Example tn_rand : Forall (fun kr => wf_rtype (snd kr)) tn_rgrid /\ randint_ok tn_randint /\
  (forall t a b, (a <= b)%Q -> (a <= tn_uniform t a b)%Q /\ (tn_uniform t a b <= b)%Q) /\
  rand_cases tn_randint tn_uniform (fun t => t) tn_rgrid 2 = Some [[VNum 4; VNum 0; VStr "u"]; [VNum 4; VNum 0; VStr "v"]]%string.
Proof.
  split; [|split; [|split]].
  - unfold tn_rgrid. repeat constructor; simpl; try (vm_compute; discriminate); try discriminate; [exists 1%Z|exists 4%Z]; reflexivity.
  - intros t lo hi H. unfold tn_randint. lia.
  - intros t a b H. unfold tn_uniform. split; [apply Qle_refl|auto].
  - vm_compute. reflexivity.
Qed.

(** Hyperparameters named id and score. *)
Definition tn_bad (x : list val) : option Q := Some 9%Q.
Lemma tn_bad_csv : exists names cases row, NoDup names /\ cases = grid_cases [("id"%string, [VNum 7])] /\ names = ["id"%string] /\
  snd (serial tn_bad names cases) = [row] /\ length row <> length (header names) /\ hd_error row = Some (CVal (VNum 7)).
Proof.
  exists ["id"%string], [[VNum 7]], [CVal (VNum 7); CScore 9]. split; [repeat constructor; simpl; tauto|].
  repeat split. simpl. discriminate.
Qed.
Lemma tn_bad_frame : exists names cases, NoDup names /\ cases = grid_cases [("score"%string, [VNum 7])] /\ names = ["score"%string] /\
  forall col v, dget (frame names cases (fst (serial tn_bad names cases))) "score" = Some col -> ~ In (CVal v) col.
Proof.
  exists ["score"%string], [[VNum 7]]. split; [repeat constructor; simpl; tauto|]. repeat split.
  intros col v H. inversion H; subst. simpl. intros [E|[]]. discriminate.
Qed.
