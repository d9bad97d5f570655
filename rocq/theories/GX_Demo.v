(** Runs of the genetic algorithm of the input files. *)
From Coq Require Import List Arith ZArith QArith Bool Sorted Permutation Lia Lqa.
From Verif Require Import Base BaseFacts Space_Model Space_Spec Space_Facts Opt_Model Opt_Facts ES_Model ES_Spec ES_Proofs
  GX_Model GX_Spec GX_Proofs GX_Final.
Import ListNotations.
Open Scope nat_scope.

Definition box : list dimn := [Dim false 0 1; Dim true 0 3].
(** Two survivors of three, a report every second generation, half of the children by mutation. *)
Definition card0 (cx mt : Q) (kbs : option (list (list Q) * Q)) (n : nat) : ga_card :=
  GaCard box 2 (Some 3) n 2 cx mt (1 # 10) (1 # 2) kbs.
Definition rows0 : list (list Q) := [[0; 1]; [1; 2]; [1 # 2; 3]; [1; 0]]%Q.
Definition ini0 (k : nat) : idraw := IDraw (fun _ => Z.of_nat k) (fun _ => 1 # 2)%Q (fun _ => 1)%Q k.
Definition drs0 (g k : nat) : odraw :=
  ODraw (inject_Z (Z.of_nat k) / 3)%Q k (S k) g k (fun _ => 0)%Q (fun _ => 0)%Q
    (MDraw (fun _ => 1)%Q (fun _ => 1)%Q (fun _ => if g =? 1 then 100 else -100)%Q (fun _ => 0)%Q (fun _ => k)).
Definition total0 (n : nat) (x : list Q) : Q := fold_right Qplus 0%Q x.
Definition one (x : Q) : Q := 1%Q.

Lemma sound0 : forall cx mt frac n, sound (card0 cx mt (Some (rows0, frac)) n).
Proof.
  intros. split; [|split; [|split; [|split]]]; cbn.
  - constructor; [split; [cbn; lra|discriminate]|]. constructor; [|constructor]. cbn.
    split; [lra|]. intros _. split; [exists 0%Z|exists 3%Z]; reflexivity.
  - lra.
  - lra.
  - lra.
  - intros rows fr H. injection H as <- <-. unfold feasible, box, rows0.
    repeat (constructor; [constructor; [|constructor; [|constructor]]; cbn; (split; [lra|split; [lra|]]); try discriminate; intros _;
      first [exists 0%Z; reflexivity | exists 1%Z; reflexivity | exists 2%Z; reflexivity | exists 3%Z; reflexivity] |]).
    constructor.
Qed.
Lemma sound1 : forall cx mt n, sound (card0 cx mt None n).
Proof.
  intros. split; [|split; [|split; [|split]]]; cbn; try lra; [|discriminate].
  constructor; [split; [cbn; lra|discriminate]|]. constructor; [|constructor]. cbn.
  split; [lra|]. intros _. split; [exists 0%Z|exists 3%Z]; reflexivity.
Qed.
Lemma units0 : units ini0.
Proof. intros k i. cbn. lra. Qed.

(** Crossover, mutation and copy in each generation; a third of the population from the dataset. *)
Definition report_of (r : option (list member * list generation)) : option (list (option Q)) :=
  match r with Some (_, l) => Some (map (fun g => option_map Qred (gn_report g)) l) | None => None end.
Definition children_of (r : option (list member * list generation)) : option (list (list (list Q))) :=
  match r with Some (_, l) => Some (map (fun g => map (fun m => map Qred (m_ind m)) (gn_offspring g)) l) | None => None end.

Definition run0 := ga_build one (fun _ => 1%Q) (fun _ => 1%Q) (card0 (1 # 3) (1 # 3) (Some (rows0, 1 # 3)) 3) total0 ini0
                     drs0 (fun g i => g + i).
Example run0_done :
  report_of run0 = Some [None; Some (7 # 2); Some (7 # 2)]%Q /\
  children_of run0 = Some [[[0; 3]; [1; 1]; [1 # 2; 3]]; [[1 # 2; 2]; [0; 1]; [1 # 2; 3]]; [[1 # 2; 3]; [0; 1]; [1 # 2; 3]]]%Q.
Proof. split; vm_compute; reflexivity. Qed.
(** It meets the conditions of every theorem: a sound card, enough rows, each kind of child. *)
Example run0_sound : sound (card0 (1 # 3) (1 # 3) (Some (rows0, 1 # 3)) 3) /\ units ini0 /\
  enough (card0 (1 # 3) (1 # 3) (Some (rows0, 1 # 3)) 3) /\ (forall x, (0 < one x)%Q) /\
  (od_rn (drs0 1 0) < 1 # 3)%Q /\ (1 # 3 <= od_rn (drs0 1 1))%Q /\ (od_rn (drs0 1 1) < (1 # 3) + (1 # 3))%Q /\
  ((1 # 3) + (1 # 3) <= od_rn (drs0 1 2))%Q.
Proof.
  split; [apply sound0|]. split; [exact units0|]. split; [cbn; vm_compute; repeat split; try lia; discriminate|].
  split; [intros x; reflexivity|]. repeat split; vm_compute; try reflexivity; discriminate.
Qed.
(** All rows from the dataset for both survivors is possible, a row more than the survivors is not. *)
Example share_demo : enough (card0 0 1 (Some (rows0, 2 # 3)) 3) /\ kbs_count (card0 0 1 (Some (rows0, 1%Q)) 3) 1%Q = 3%Z /\
  ga_build one (fun _ => 1%Q) (fun _ => 1%Q) (card0 0 1 (Some (rows0, 1%Q)) 3) total0 ini0 drs0 (fun g i => g + i) = None.
Proof.
  split; [cbn; vm_compute; repeat split; try lia; discriminate|]. split; [reflexivity|].
  apply (kbs_raises _ _ _ _ _ _ _ _ rows0 1%Q); [reflexivity|cbn; lia|]. left. vm_compute. reflexivity.
Qed.

(** ** The best reward may fall, and a strategy may leave its range. *)
Lemma best_falls : exists expf tau tau' c f ini drs raws pop l g1 g2 q1 q2,
  (forall x, (0 < expf x)%Q) /\ sound c /\ units ini /\
  ga_build expf tau tau' c (fun _ => f) ini drs raws = Some (pop, l) /\
  nth_error l 0 = Some g1 /\ nth_error l 1 = Some g2 /\
  gn_report g1 = Some q1 /\ gn_report g2 = Some q2 /\ (q2 < q1)%Q.
Proof.
  set (c := GaCard box 2 None 2 1 0 1 (1 # 10) (1 # 2) None).
  destruct (ga_build one (fun _ => 1%Q) (fun _ => 1%Q) c (fun _ => total0 0) ini0 drs0 (fun g i => g + i)) as [[pop l]|] eqn:E;
    [|vm_compute in E; discriminate].
  exists one, (fun _ => 1%Q), (fun _ => 1%Q), c, (total0 0), ini0, drs0, (fun g i => g + i), pop, l.
  vm_compute in E. injection E as <- <-.
  eexists. eexists. eexists. eexists. split; [intros x; reflexivity|]. split; [|split; [exact units0|]].
  - split; [|split; [|split; [|split]]]; cbn; try lra; [|discriminate].
    constructor; [split; [cbn; lra|discriminate]|]. constructor; [|constructor]. cbn.
    split; [lra|]. intros _. split; [exists 0%Z|exists 3%Z]; reflexivity.
  - split; [vm_compute; reflexivity|]. split; [reflexivity|]. split; [reflexivity|]. split; [reflexivity|].
    split; [reflexivity|]. vm_compute. reflexivity.
Qed.
Definition two (x : Q) : Q := 2%Q.
Lemma strategy_leaves : exists expf tau tau' c f ini drs raws pop l gen m s,
  (forall x, (0 < expf x)%Q) /\ sound c /\ units ini /\
  ga_build expf tau tau' c f ini drs raws = Some (pop, l) /\
  In gen l /\ In m (gn_offspring gen) /\ In s (m_strat m) /\ (g_smax c < s)%Q.
Proof.
  set (c := card0 0 1 None 1).
  destruct (ga_build two (fun _ => 1%Q) (fun _ => 1%Q) c total0 ini0 drs0 (fun g i => g + i)) as [[pop l]|] eqn:E;
    [|vm_compute in E; discriminate].
  exists two, (fun _ => 1%Q), (fun _ => 1%Q), c, total0, ini0, drs0, (fun g i => g + i), pop, l.
  vm_compute in E. injection E as <- <-.
  eexists. eexists. eexists. split; [intros x; reflexivity|]. split; [apply sound1|]. split; [exact units0|].
  split; [vm_compute; reflexivity|]. split; [left; reflexivity|]. split; [left; reflexivity|].
  split; [left; reflexivity|]. vm_compute. reflexivity.
Qed.
(** One survivor: the second generation cannot cross. *)
Example alone_demo :
  ga_build one (fun _ => 1%Q) (fun _ => 1%Q) (GaCard box 1 (Some 3) 2 1 1 0 (1 # 10) (1 # 2) None) total0 ini0 drs0
    (fun g i => g + i) = None /\
  ga_build one (fun _ => 1%Q) (fun _ => 1%Q) (GaCard box 1 (Some 3) 1 1 1 0 (1 # 10) (1 # 2) None) total0 ini0 drs0
    (fun g i => g + i) <> None.
Proof. split; vm_compute; [reflexivity|discriminate]. Qed.

(** Without [lambda] as many children as [pop]; two thirds of five children are three rows. *)
Example asked_demo : asked (GaCard box 2 None 2 1 0 1 (1 # 10) (1 # 2) None) = 2 /\
  asked (GaCard box 2 (Some 0) 2 1 0 1 (1 # 10) (1 # 2) None) = 2 /\
  asked (GaCard box 2 (Some 5) 2 1 0 1 (1 # 10) (1 # 2) None) = 5 /\
  kbs_count (GaCard box 2 (Some 5) 2 1 0 1 (1 # 10) (1 # 2) None) (2 # 3) = 3%Z.
Proof. repeat split. Qed.
