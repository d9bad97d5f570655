From Coq Require Import Ascii String List Arith ZArith QArith Bool Lia Permutation.
From Verif Require Import LG_Model LG_Spec LG_Proofs LG_Files.
Import ListNotations.
Open Scope nat_scope.

(** Outputs that keep the dictionaries. *)
Definition keep (o : list (dict val)) (d : dict val) : list (dict val) * dict val * bool := (o ++ [d], d, false).
Definition l0 : @logger (list (dict val)) := Lg [] [] 20 [].
Definition a := t "a". Definition b := t "b".
Example fresh_a : fresh_key a l0.
Proof. split; reflexivity. Qed.
Definition some_ops : list op := [Mean a (Num 1); Log b (Txt (t "x")); Mean a (Num 4)].
Example mean_demo : on a some_ops = map (fun x => Mean a (Num x)) [1; 4]%Q /\ no_dump some_ops.
Proof. split. reflexivity. intros [H|[H|[H|[]]]]; discriminate. Qed.
Example mean_is : exists q, get a (vals (history keep some_ops l0)) = Some (Num q) /\ (q == 5 # 2)%Q.
Proof. eexists. split. reflexivity. reflexivity. Qed.
(** 1 and 3 averaged, then 10 logged, then 4 averaged: 8. *)
Definition mixed_ops : list op := [Mean a (Num 1); Mean a (Num 3); Log a (Num 10); Mean a (Num 4)].
Example mixed_is : exists q, get a (vals (history keep mixed_ops l0)) = Some (Num q) /\ (q == 8)%Q.
Proof. eexists. split. reflexivity. reflexivity. Qed.
Example profile_demo : on (t "wait_f") [Profile (t "f") 1; Log a (Num 1); Profile (t "f") 2] = map (Profile (t "f")) [1; 2]%Q.
Proof. reflexivity. Qed.
Example two_dumps : outs (history keep [Log a (Num 1); Dump; Log b (Num 2); Dump] l0) = [[(a, Num 1)]; [(b, Num 2)]].
Proof. reflexivity. Qed.
Example keep_ok : forall o d, snd (keep o d) = false.
Proof. reflexivity. Qed.
Example disabled_demo : vals (history keep [Log a (Num 1); Level 50; Dump; Level 20; Log b (Num 2)] l0) = [(a, Num 1); (b, Num 2)].
Proof. reflexivity. Qed.
Example none_demo : get a (vals (history keep [Mean a Nothing] l0)) = Some Nothing.
Proof. reflexivity. Qed.

(** Values as texts: 1, 2, ... digits, lists with commas, arrays with blanks. *)
Definition digit (x : Q) : text := [ascii_of_nat (48 + Z.to_nat (Qnum x))].
Fixpoint between (s : text) (l : list text) : text := match l with [] => [] | [x] => x | x :: r => x ++ s ++ between s r end.
Definition show (v : val) : text :=
  match v with
  | Num x => digit x | Txt s => s | Nothing => t "None"
  | Arr _ d => t "[" ++ between (t " ") (map digit d) ++ t "]"
  | Lst _ d => t "[" ++ between (t ", ") (map digit d) ++ t "]"
  end.
Definition same_order (l : list text) := l.
Example order_ok : forall l, Permutation (same_order l) l.
Proof. reflexivity. Qed.
Definition d1 : dict val := [(a, Num 1)]. Definition d2 : dict val := [(b, Num 2); (a, Nothing)].
Example clean_demo : Forall (clean_dict show) [d1; d2] /\ Forall dictionary [d1; d2].
Proof.
  assert (C : forall x, In x [a; b; t "1"; t "2"; t "None"] -> clean x).
  { intros x H. repeat (destruct H as [<-|H]; [repeat split; intro E; cbn in E; intuition discriminate|]). destruct H. }
  split.
  - constructor; [|constructor; [|constructor]]; intros k v H; repeat (destruct H as [H|H]; [injection H as <- <-; split; apply C; vm_compute; tauto|]); destruct H.
  - constructor; [|constructor; [|constructor]]; unfold dictionary; cbn; repeat constructor; cbn; intuition discriminate.
Qed.
Example csv_demo : file (fold_left (csv_write show same_order) [d1; d2] csv0) = t "a,b
1,
,2
".
Proof. reflexivity. Qed.
Lemma csv_empty_first : table (file (fold_left (csv_write show same_order) [[]; []; d1] csv0)) = [[a]; [[]; []]; [t "1"]].
Proof. reflexivity. Qed.
Lemma csv_commas : table (file (fold_left (csv_write show same_order) [[(a, Lst [2] [1; 2]%Q); (b, Num 3)]] csv0)) = [[a; b]; [t "[1"; t " 2]"; t "3"]].
Proof. reflexivity. Qed.
(** An array [1 2] and a number, written to a JSON and a CSV file. *)
Definition arr_ops : list op := [Log a (Arr [2] [1; 2]%Q); Log b (Num 3); Dump].
Definition csv_of (os : list output) : list (list (list text)) := flat_map (fun o => match o with CsvOut c => [table (file c)] | _ => [] end) os.
Lemma json_before : csv_of (outs (history (write_all show digit same_order (fun _ => None)) arr_ops (Lg [] [] 20 [Json []; CsvOut csv0]))) = [[[a; b]; [t "[1"; t " 2]"; t "3"]]].
Proof. reflexivity. Qed.
Lemma json_after : csv_of (outs (history (write_all show digit same_order (fun _ => None)) arr_ops (Lg [] [] 20 [CsvOut csv0; Json []]))) = [[[a; b]; [t "[1 2]"; t "3"]]].
Proof. reflexivity. Qed.
Example no_number : In (a, Txt (t "x")) [(a, Txt (t "x"))] /\ (fun _ : text => @None Q) (t "x") = None.
Proof. split; [now left|reflexivity]. Qed.

(** The human readable table. *)
Example human_demo : human_lines show digit [(b, Txt (t "xyz")); (a, Num 1)] = [t "-----------"; t "| a | 1   |"; t "| b | xyz |"; t "-----------"].
Proof. reflexivity. Qed.
Definition long1 := t "rollout/mean_episode_reward". Definition long2 := t "rollout/mean_episode_length".
Lemma human_lost : human_lines show digit [(long1, Num 1); (long2, Num 2)] =
  [t "-------------------------------"; t "| rollout/mean_episode... | 1 |"; t "-------------------------------"].
Proof. reflexivity. Qed.
Lemma two_open : opened (exec Configure (exec Configure (World 0 1 []))) = [2; 1].
Proof. reflexivity. Qed.
Lemma scope_leak : opened (exec (Scope [Configure]) (World 0 1 [])) = [1].
Proof. reflexivity. Qed.
Example made_demo : made (World 0 1 []) /\ scopes_only (Scope [Scope []; Scope [Scope []]]) = true.
Proof. split. split. cbn. lia. intros n []. reflexivity. Qed.

Definition arrays : dict val := [(b, Arr [] [1]%Q); (a, Arr [2] [1; 2]%Q); (t "c", Arr [1] [3]%Q)].
Example arrays_ok : dictionary arrays /\ (forall k v, In (k, v) arrays -> json_plain v).
Proof.
  split; [repeat constructor; cbn; intuition discriminate|]. intros k v [H|[H|[H|[]]]]; injection H as <- <-; cbn; eauto.
Qed.
Example arrays_json : write_one show digit same_order (fun _ => None) (Json []) arrays =
  (Json [[(b, Num 1); (a, Lst [2] [1; 2]%Q); (t "c", Num 3)]], [(b, Num 1); (a, Lst [2] [1; 2]%Q); (t "c", Num 3)], false).
Proof. reflexivity. Qed.
Example events_demo : map (tb_values (fun _ => None)) [[(a, Num 1); (b, Nothing)]; [(a, Num 2)]] = map Some [[(a, 1%Q)]; [(a, 2%Q)]].
Proof. reflexivity. Qed.
