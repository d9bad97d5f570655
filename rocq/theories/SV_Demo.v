(** Concrete cases that meet the hypotheses of C98, C99 and C100. *)
From Coq Require Import Ascii String List Arith ZArith Bool Lia Permutation.
From Verif Require Import SV_Model SV_Spec SV_Proofs SV_Params.
Import ListNotations.
Open Scope string_scope.

Definition itxt (z : Z) : string := if (z =? 1)%Z then "1" else "n".
Definition otxt (v : py) : string := "text".
Definition pick (v : py) : string := match v with PObj 7 _ => "p7" | _ => "p" end.
Definition unpick (s : string) : option py := if s =? "p7" then Some (PObj 7 (Some [("low", PFloat 1)])) else if s =? "evil" then Some PNone else None.
Example texts_ok : sane_texts itxt itxt.
Proof. intros z. unfold itxt. destruct (z =? 1)%Z; split; discriminate. Qed.

(** A dictionary with a float, a nested dictionary and an object. *)
Definition data1 : list (string * py) := [("gamma", PFloat 99); ("policy_kwargs", PDict [(KStr "layers", PList [PInt 64; PInt 64])]); ("space", PObj 7 (Some [("low", PFloat 1)]))].
Example data1_ok : forall k v, In (k, v) data1 -> plain_item v \/ pickled_item pick unpick v.
Proof.
  intros k v [H|[H|[H|[]]]]; injection H as <- <-.
  - left. split; [constructor|discriminate].
  - left. split; [|intros l E; injection E as <-; cbn; intros [X|[]]; discriminate].
    constructor; [repeat constructor; intros []|]. constructor; [|constructor]. split; [now eexists|]. repeat constructor.
  - right. split; [intros H; inversion H|]. split; [reflexivity|]. cbn. repeat constructor. discriminate.
Qed.
Example data1_names : NoDup (map fst data1). Proof. repeat constructor; cbn; intuition discriminate. Qed.
Example data1_stored : option_map (json_to_data unpick []) (data_to_json itxt itxt otxt otxt pick data1) = Some (Some data1). Proof. reflexivity. Qed.
(** With a custom object for an object that does not unpickle. *)
Definition data2 : list (string * py) := [("gamma", PFloat 99); ("policy", PObj 8 None)].
Example data2_custom : option_map (json_to_data unpick [("policy", PStr "mine"); ("extra", PInt 1)]) (data_to_json itxt itxt otxt otxt pick data2) = Some (Some [("gamma", PFloat 99); ("policy", PStr "mine")]). Proof. reflexivity. Qed.
Example data2_alone : option_map (json_to_data unpick []) (data_to_json itxt itxt otxt otxt pick data2) = Some None. Proof. reflexivity. Qed.
Example data2_ok : forall k v, In (k, v) data2 -> (plain_item v \/ pickled_item pick unpick v) \/ In k (map fst [("policy", PStr "mine"); ("extra", PInt 1)]).
Proof. intros k v [H|[H|[]]]; injection H as <- <-; [left; left; split; [constructor|discriminate]|right; now left]. Qed.
(** A tuple, two equal texts, a marker, an attribute, a tuple as key. *)
Example tuple1 : option_map (json_to_data unpick []) (data_to_json itxt itxt otxt otxt pick [("a", PTuple [PInt 1; PInt 2])]) = Some (Some [("a", PList [PInt 1; PInt 2])]). Proof. reflexivity. Qed.
Example tuple_ok : json_ok (PTuple [PInt 1]) /\ ~ clean (PTuple [PInt 1]). Proof. split; [repeat constructor|intros H; inversion H]. Qed.
Example keys1 : option_map (json_to_data unpick []) (data_to_json itxt itxt otxt otxt pick [("a", PDict [(KInt 1, PInt 5); (KStr "1", PInt 6)])]) = Some (Some [("a", PDict [(KStr "1", PInt 6)])]). Proof. reflexivity. Qed.
Example marker1 : option_map (json_to_data unpick []) (data_to_json itxt itxt otxt otxt pick [("a", PDict [(KStr ":serialized:", PStr "evil")])]) = Some (Some [("a", PNone)]). Proof. reflexivity. Qed.
Example attribute1 : option_map (json_to_data unpick []) (data_to_json itxt itxt otxt otxt pick [("a", PObj 7 (Some [(":serialized:", PStr "evil")]))]) = Some (Some [("a", PNone)]). Proof. reflexivity. Qed.
Example key1 : data_to_json itxt itxt otxt otxt pick [("a", PDict [(KOther 3, PInt 1)])] = None. Proof. reflexivity. Qed.
(** A dictionary inside a list may hold an object: the list is pickled. *)
Example nested1 : data_to_json itxt itxt otxt otxt pick [("a", PList [PObj 7 None])] = Some (JObj [("a", JObj [(":type:", JStr "text"); (":serialized:", JStr "p")])]). Proof. reflexivity. Qed.

Definition vars1 : list (string * nat) := [("w", 1); ("b", 2)].
Example vars1_names : NoDup (map fst vars1). Proof. repeat constructor; cbn; intuition discriminate. Qed.
Example load1 : load_dict vars1 [("b", 7)] false = Some [("w", 1); ("b", 7)]. Proof. reflexivity. Qed.
Example load2 : load_dict vars1 [("b", 7)] true = None. Proof. reflexivity. Qed.
Example load3 : load_dict vars1 [("x", 7)] false = None. Proof. reflexivity. Qed.
Example load4 : load_dict vars1 [("b", 7); ("w", 8)] true = Some [("w", 8); ("b", 7)]. Proof. reflexivity. Qed.
Example load5 : load_list vars1 [5; 6; 7] true = Some [("w", 5); ("b", 6)]. Proof. reflexivity. Qed.
Example load6 : load_list vars1 [5] false = None. Proof. reflexivity. Qed.
Definition ch (s : string) : chars := list_ascii_of_string s.
Example names1 : (save_name (ch "model"), save_name (ch "model.pkl"), save_name (ch "run.1/model"), save_name (ch ".model")) = (ch "model.zip", ch "model.pkl", ch "run.1/model.zip", ch ".model.zip"). Proof. reflexivity. Qed.
Example version1 : save_name (ch "model_v1.0") = ch "model_v1.0". Proof. reflexivity. Qed.
Example ext1 : has_ext (ch "model.pkl"). Proof. now apply ext_iff. Qed.
Example ext2 : ~ has_ext (ch "run.1/model"). Proof. intros H. apply ext_iff in H. discriminate. Qed.
Example shadow1 : load_name (fun p => if list_eq_dec ascii_dec p (ch "model") then true else if list_eq_dec ascii_dec p (ch "model.zip") then true else false) (ch "model") = Some (ch "model"). Proof. reflexivity. Qed.
Definition m1 : attrs nat := fun n => if n =? "buffer_size" then Some 5 else if n =? "gamma" then Some 9 else None.
Definition f1 : attrs nat := fun n => if n =? "buffer_size" then Some 500 else Some 0.
Example buffer1 : option_map (fun m => (m "buffer_size", m "gamma")) (load_attrs Nat.eqb f1 (save_data DQN m1) []) = Some (f1 "buffer_size", Some 9). Proof. reflexivity. Qed.
Example kw1 : option_map (fun m => (m "gamma", m "gama")) (load_attrs Nat.eqb f1 (save_data PPO2 m1) [("gama", Some 3)]) = Some (Some 9, Some 3). Proof. reflexivity. Qed.
Example kw1_ok : NoDup (map fst [("gama", Some 3)]) /\ ~ In "policy_kwargs" (map fst [("gama", Some 3)]). Proof. split; [repeat constructor; intros []|]. cbn. intuition discriminate. Qed.

Definition plain : env := Env 3 2 None.
Definition vec (n : nat) : env := Env 3 2 (Some n).
Example env1 : option_map (fun m => (m_n m, set_env m (Some plain), option_map m_n (set_env m (Some (vec 4))))) (construct true false plain) = Some (1, None, Some 4). Proof. reflexivity. Qed.
Example env2 : option_map (fun m => option_map m_n (set_env m (Some (vec 4)))) (construct true true (vec 2)) = Some None. Proof. reflexivity. Qed.
Example env3 : construct false false (vec 2) = None. Proof. reflexivity. Qed.
Example env4 : option_map (fun m => set_env m (Some (Env 3 5 None))) (construct false false plain) = Some None. Proof. reflexivity. Qed.
(** Set up with two environments of two steps: with three only the first four rows, with one an error. *)
Example shuffle1 : Permutation [2; 0; 3; 1] (seq 0 (2 * 2)).
Proof. change (seq 0 (2 * 2)) with [0; 1; 2; 3]. apply NoDup_Permutation_bis; [repeat constructor; cbn; lia|cbn; lia|intros x; cbn; tauto]. Qed.
Example ppo1 : ppo_rows (concat [[10; 11]; [20; 21]; [30; 31]]) [2; 0; 3; 1] = Some [20; 10; 21; 11]. Proof. reflexivity. Qed.
Example ppo2 : ppo_rows (concat [[10; 11]]) [2; 0; 3; 1] = None. Proof. reflexivity. Qed.
Example steps1 : ppo_steps 1000 (2 * 100) 2 100 = 1000 /\ ppo_steps 1000 (2 * 100) (3 * 2) 100 = 3 * 1000. Proof. split; reflexivity. Qed.
