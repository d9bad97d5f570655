From Coq Require Import Ascii String List Arith ZArith QArith Bool Permutation Sorted Lia.
From Verif Require Import IP_Model TU_Model TU_Spec TU_Proofs TU_Run TU_Evo.
Import ListNotations.
Open Scope list_scope.
Open Scope nat_scope.

(** An input file with two holes and a TUNE card. *)
Definition card_lines : list text := [t "READ TUNE "; t "{lr} = 1, 2 "; t "END TUNE "].
Definition demo_lines : list text := t "READ PPO " :: t "lr={lr} n={n} " :: card_lines ++ [t "END PPO"].
Definition demo_pieces : list piece := [Txt (t "READ PPO lr="); Hole (t "lr"); Txt (t " n="); Hole (t "n"); Txt (t " END PPO")].
Example demo_template : template demo_lines = Some (source demo_pieces).
Proof. vm_compute. reflexivity. Qed.
Lemma plain_dec : forall s, forallb (fun c => negb (Ascii.eqb c "{") && negb (Ascii.eqb c "}")) s = true -> plain s.
Proof.
  intros s H c Hc. rewrite forallb_forall in H. specialize (H c Hc). apply andb_prop in H as [H1 H2].
  split; intros ->; [rewrite Ascii.eqb_refl in H1|rewrite Ascii.eqb_refl in H2]; discriminate.
Qed.
Example demo_flat : flat demo_pieces.
Proof. repeat (constructor; [apply plain_dec; reflexivity|]). constructor. Qed.
Example demo_marks : Forall no_mark [t "READ PPO "; t "lr={lr} n={n} "] /\ reads (t "READ TUNE ") /\ ends (t "END TUNE ").
Proof. split; [repeat constructor|split; split; reflexivity]. Qed.

(** Two values for lr and three for n: six cases. *)
Definition demo_card : list (text * text) := [(t "method", t "gridtune"); (t "{lr}", t "a, b"); (t "{n}", t "x,y,z")].
Definition space (c : ascii) : bool := Ascii.eqb c " ".
Definition none_of (_ : text) : option text := None.
Example demo_items : map fst (tuned_items demo_card) = map name [t "lr"; t "n"].
Proof. vm_compute. reflexivity. Qed.
Example demo_grid : option_map (map (fun c => (fst c, snd (snd c)))) (grid_cases space none_of none_of (fun s => s) (fun s => s) demo_lines demo_card) =
  Some [(1, t "READ PPO lr=a n=x END PPO"); (2, t "READ PPO lr=a n=y END PPO"); (3, t "READ PPO lr=a n=z END PPO");
        (4, t "READ PPO lr=b n=x END PPO"); (5, t "READ PPO lr=b n=y END PPO"); (6, t "READ PPO lr=b n=z END PPO")].
Proof. vm_compute. reflexivity. Qed.

(** A line after the card that mentions its end, even in a comment. *)
Theorem comment_end : forall pre r mid e post c rest, Forall no_mark pre -> reads r -> Forall no_mark mid -> ends e -> Forall no_mark post -> ends c -> Forall no_mark rest ->
  template (pre ++ r :: mid ++ e :: post ++ c :: rest) = Some (List.concat (pre ++ rest)).
Proof.
  intros pre r mid e post c rest Hp Hr Hm [He1 He2] Hq Hc Hs. rewrite (app_comm_cons post (c :: rest) e), app_assoc.
  apply template_card; try assumption. apply Forall_app. split; [apply Forall_fst, Hm|]. constructor; [exact He1|apply Forall_fst, Hq].
Qed.
(** Braces in braces, or in values: the result depends on the order of the names. *)
Theorem nested : fill [name (t "b"); name (t "ac")] [t "c"; t "X"] (t "{a{b}}") = Some (t "X") /\ fill [name (t "ac"); name (t "b")] [t "X"; t "c"] (t "{a{b}}") = Some (t "{ac}").
Proof. split; reflexivity. Qed.

(** A run of cases, the second failing, finishing in the order 3, 1, 2. *)
Definition demo_rewards (x : nat) : option (list Q) := match x with 1 => Some [5; 1; 3]%Q | 2 => None | _ => Some [4; 4]%Q end.
Example demo_run : run_cases demo_rewards 2 (combine (seq 1 3) [[7]; [8]; [9]]) [(3, [9]); (1, [7]); (2, [8])] = ([Row 1 [7] (4 # 2) 5; Row 3 [9] (8 # 2) 4], 1).
Proof. vm_compute. reflexivity. Qed.

(** Random cases. *)
Definition digit (s : text) : option Z := match s with [c] => Some (Z.of_nat (nat_of_ascii c) - 48)%Z | _ => None end.
Definition digitq (s : text) : option Q := option_map inject_Z (digit s).
Example demo_dist : parse_dist space digit digitq (fun s => s) true (t "2, 5, int") = Some (DInt 2 5) /\ parse_dist space digit digitq (fun s => s) true (t "2,5 ,u") = Some (DFloat 2 5)
  /\ parse_dist space digit digitq (fun s => s) true (t "relu, tanh, grid") = Some (DGrid [t "relu"; t "tanh"]) /\ parse_dist space digit digitq (fun s => s) true (t "relu, tanh") = None.
Proof. repeat split; vm_compute; reflexivity. Qed.
Definition rand_card : list (text * text) := [(t "{lr}", t "2, 5, int"); (t "{n}", t "relu, tanh, grid")].
Definition show_gene (g : gene text) : text := match g with GInt z => [ascii_of_nat (Z.to_nat z + 48)] | GVal v => v | GFloat _ => t "f" end.
Example demo_rand : option_map (map (fun c => snd (snd c))) (rand_cases space digit digitq (fun s => s) show_gene demo_lines rand_card 2 (fun i j => Draw 0 0 (3 * i + j))) =
  Some [t "READ PPO lr=2 n=tanh END PPO"; t "READ PPO lr=5 n=relu END PPO"].
Proof. vm_compute. reflexivity. Qed.

(** Evolution: three parameters, twenty cases, all of them fit. *)
Definition demo_ds : list (dist text) := [DInt 1 4; DFloat 0 1; DGrid [t "relu"; t "tanh"]].
Definition demo_init (i j : nat) : draw := Draw (1 # 2) 0 (i + j).
Definition demo_child (k i : nat) : child_draw := CDraw (Z.of_nat i # 10) i (2 * i) i (i + 1) (fun j => GDraw true (1 # 3) (i + j)).
Definition keep {A} (l : list A) : list A := l.
Definition demo_fit (x : nat) (p : list (gene text)) : option Q := Some (Z.of_nat x # 1).
Example demo_es : map ecase (fst (es_run demo_fit keep demo_ds 25 demo_init demo_child)) = seq 1 20 /\ snd (es_run demo_fit keep demo_ds 25 demo_init demo_child) = Some (MeanReward, 0).
Proof. split; vm_compute; reflexivity. Qed.
Example demo_unit : forall i j, unit (demo_init i j).
Proof. intros i j. split; [discriminate|reflexivity]. Qed.

(** The reported number of failed cases. *)
Definition fail_fit (x : nat) (p : list (gene text)) : option Q := match x with 2 => None | _ => Some (Z.of_nat x # 1) end.
Theorem failed_unreported : exists (fit : nat -> list (gene text) -> option Q) by_name ds ncases init x c f,
  (forall l, incl (by_name l) l) /\ (forall i j, unit (init i j)) /\ snd (es_run fit by_name ds ncases init x) = Some (c, f) /\ f = 0
  /\ exists e, In e (fst (es_run fit by_name ds ncases init x)) /\ efit e = None.
Proof.
  exists fail_fit, keep, demo_ds, 10, demo_init, demo_child. eexists; eexists. split; [intros l; apply incl_refl|]. split; [exact demo_unit|].
  split; [vm_compute; reflexivity|]. split; [reflexivity|].
  exists (Entry 2 [GInt 2; GFloat (1 # 2); GVal (t "tanh")] None). split; [|reflexivity]. right. left. vm_compute. reflexivity.
Qed.

(** Cases of a failed and of a successful case in one generation, and of a constant integer. *)
Definition later_fit (x : nat) (p : list (gene text)) : option Q := match x with 12 => None | _ => Some 1%Q end.
Example demo_failed : exists e1 e2, In e1 (fst (es_run later_fit keep demo_ds 20 demo_init demo_child)) /\ In e2 (fst (es_run later_fit keep demo_ds 20 demo_init demo_child))
  /\ ecase e1 = 12 /\ ecase e2 = 13 /\ efit e1 = None /\ efit e2 <> None.
Proof.
  set (l := fst (es_run later_fit keep demo_ds 20 demo_init demo_child)). vm_compute in l.
  exists (nth 11 l (Entry 0 [] None)), (nth 12 l (Entry 0 [] None)). repeat split; try (unfold l; cbn [nth]; cbn [In]; tauto); try reflexivity. discriminate.
Qed.
Example demo_constant : Qle (1#2) (calpha (demo_child 1 5)) /\ Qlt (calpha (demo_child 1 5)) (7#10) /\ 20 / 10 - 1 = 1.
Proof. repeat split; vm_compute; congruence. Qed.
Example demo_bayes : bayes_ids 2 30 = seq 1 30 /\ bayes_ids 2 5 = seq 1 22 /\ List.length (bayes_ids 4 50) = 48 /\ List.length (bayes_ids 1 5) = 11.
Proof. repeat split; vm_compute; reflexivity. Qed.
