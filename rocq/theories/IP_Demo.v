(** An input file. *)
From Coq Require Import Ascii String List Arith ZArith Bool Lia.
From Verif Require Import IP_Model IP_Spec IP_Proofs IP_Check.
Import ListNotations.
Open Scope list_scope.
Definition nl : string := String (ascii_of_nat 10) EmptyString.
Definition sp (c : ascii) : bool := (Ascii.eqb c " " || Ascii.eqb c (ascii_of_nat 10))%bool.
Definition al (c : ascii) : bool := let n := nat_of_ascii c in ((65 <=? n) && (n <=? 90) || (97 <=? n) && (n <=? 122))%nat%bool.
Definition file : list text := map (fun s => t (s ++ nl)%string)
  ["READ GENERAL"; "env = my-v0"; "xsize= 2"; "nactions =4"; "ysize = 1"; "# a note"; "END GENERAL"; "READ DQN"; " mode = train"; ""; "mode = test = x"; "END DQN"]%string.
Definition items : list text := map t ["READ GENERAL"; "env = my-v0"; "xsize= 2"; "nactions =4"; "ysize = 1"; "END GENERAL"; "READ DQN"; "mode = train"; "mode = test = x"; "END DQN"]%string.
Lemma sane_sp : sane sp al. Proof. repeat split. Qed.
Example demo_read : input_file sp al file = Ok items. Proof. vm_compute. reflexivity. Qed.
Definition no_dict (s : text) : option unit := None.
Example demo_dqn : parse_card sp no_dict (t "DQN") items = Some [(t "mode", Raw (t "test"))]. Proof. vm_compute. reflexivity. Qed.
Example demo_blocks : exists g algs, blocks sp no_dict items = Some (g, None, algs) /\ map fst algs = [t "DQN"] /\ dget (t "env") g = Some (Raw (t "my-v0")).
Proof. eexists _, _. split; [vm_compute; reflexivity|]. split; vm_compute; reflexivity. Qed.
Lemma nd : forall s, contains (t "env_data") s = false -> no_data s. Proof. intros s H. now apply no_data_iff. Qed.
Lemma not_in : forall c s, existsb (Ascii.eqb c) s = false -> ~ In c s. Proof. intros c s H I. assert (existsb (Ascii.eqb c) s = true); [|congruence]. apply existsb_exists. exists c. split; [exact I|apply Ascii.eqb_refl]. Qed.
Lemma tr : forall s, strip sp s = s -> trimmed sp s. Proof. intros s H. rewrite <- H. apply strip_trimmed. Qed.
Lemma bl : forall s, forallb sp s = true -> blank sp s. Proof. intros s H. apply Forall_forall. now apply forallb_forall. Qed.
(** The card DQN of a file as the specification sees it. *)
Example demo_file : file_with sp al false (t "DQN") [(t "mode", t "train"); (t "mode", t "test")] file.
Proof.
  exists (firstn 7 file), (nth 7 file []), (firstn 3 (skipn 8 file)), (nth 11 file []), []. split; [reflexivity|]. split; [|split; [constructor|split; [|split]]].
  - repeat (apply Forall_cons; [split; [apply nd; vm_compute; reflexivity|split; intros (_ & T & w & w' & B & B' & E); apply (f_equal (strip sp)) in E; rewrite strip_mid in E by assumption; vm_compute in E; discriminate]|]). constructor.
  - split; [apply nd; vm_compute; reflexivity|]. split; [apply tr; vm_compute; reflexivity|]. exists [], (t nl). split; [constructor|]. split; [apply bl; vm_compute; reflexivity|vm_compute; reflexivity].
  - split; [apply nd; vm_compute; reflexivity|]. split; [apply tr; vm_compute; reflexivity|]. exists [], (t nl). split; [constructor|]. split; [apply bl; vm_compute; reflexivity|vm_compute; reflexivity].
  - assert (K : forall k v more w1 w2 w3 w4 s, contains (t "env_data") s = false -> strip sp k = k -> strip sp v = v -> existsb (Ascii.eqb "=") k = false -> existsb (Ascii.eqb "=") v = false -> match k with c :: _ => al c | [] => false end = true ->
      forallb sp (w1 ++ w2 ++ w3 ++ w4) = true -> s = w1 ++ k ++ w2 ++ "="%char :: w3 ++ v ++ w4 ++ more -> (more = [] \/ exists u, more = "="%char :: u) -> assigns sp al s k v more).
    { intros k v more w1 w2 w3 w4 s H1 H2 H3 H4 H5 H6 H7 H8 H9. split; [now apply nd|]. split; [now apply tr|]. split; [now apply tr|]. split; [now apply not_in|]. split; [now apply not_in|]. split; [destruct k as [|c u]; [discriminate|now exists c, u]|].
      rewrite !forallb_app, !andb_true_iff in H7. destruct H7 as (B1 & B2 & B3 & B4). exists w1, w2, w3, w4. repeat (split; [now apply bl|]). split; [exact H8|exact H9]. }
    apply (body_set _ _ _ _ _ _ (@nil ascii)); [apply K with (w1 := t " ") (w2 := t " ") (w3 := t " ") (w4 := t nl); try (vm_compute; reflexivity); now left|discriminate|].
    apply body_inert; [split; [apply nd; vm_compute; reflexivity|left; apply bl; vm_compute; reflexivity]|].
    apply (body_set _ _ _ _ _ _ (t ("= x" ++ nl))); [apply K with (w1 := []) (w2 := t " ") (w3 := t " ") (w4 := t " "); try (vm_compute; reflexivity); right; now eexists|discriminate|constructor].
Qed.
Example demo_values : exists p, parse_card sp no_dict (t "DQN") items = Some p /\ forall k, dget k p = option_map Raw (last_value k [(t "mode", t "train"); (t "mode", t "test")]).
Proof. apply (card_values sp al sane_sp no_dict false (t "DQN") _ file items); [apply not_in; vm_compute; reflexivity|exact demo_file|exact demo_read]. Qed.
(** A dictionary over two lines, and one that is never closed. *)
Example demo_data : read sp None (map t ["env_data = {'a':1, # first"; "'b':2}!"; "xsize = 2"]%string) = Some (map t ["env_data = {'a':1,'b':2}"; "xsize = 2"]%string). Proof. vm_compute. reflexivity. Qed.
Example demo_hang : input_file sp al (map t ["READ GENERAL"; "env_data = {'a':1}"]%string) = Hang. Proof. vm_compute. reflexivity. Qed.
(** Numbers of one digit as floats. *)
Definition fl (s : text) : option Z := match s with [c] => let n := nat_of_ascii c in if ((48 <=? n) && (n <=? 57))%nat%bool then Some (Z.of_nat n - 48)%Z else None | _ => None end.
Definition gen_block : list (text * @value unit) := [(t "env", Raw (t "my-v0")); (t "xsize", Raw (t "2")); (t "nactions", Raw (t "4")); (t "ysize", Raw (t "1")); (t "maxcores", Raw (t "3"))].
Definition ga_block (n : string) : list (text * @value unit) := [(t "mode", Raw (t "train")); (t "pop", Raw (t "5")); (t "ngen", Raw (t "2")); (t "ncores", Raw (t n))].
Definition df (card n : text) : option (@val unit Z) := if teqb n (t "ncores") then Some (VInt 1%Z) else None.
Example demo_setup : exists r, setup sp fl Some (fun _ => []) 8%Z df gen_block [(t "DQN", [(t "mode", Raw (t "test"))]); (t "GA", ga_block "2")] = Some r. Proof. eexists. vm_compute. reflexivity. Qed.
Example demo_too_many : setup sp fl Some (fun _ => []) 8%Z df gen_block [(t "DQN", [(t "mode", Raw (t "test"))]); (t "GA", ga_block "3")] = None. Proof. vm_compute. reflexivity. Qed.
Example demo_train_load : check_input sp fl Some (fun _ => []) (t "DQN") [(t "mode", Raw (t "train")); (t "model_load_path", @Raw unit (t "a"))] = None. Proof. vm_compute. reflexivity. Qed.
