From Coq Require Import Ascii String List Arith ZArith Bool Lia.
Import ListNotations.
Require Import Verif.IP_Model Verif.IP_Spec Verif.MN_Model Verif.MN_Spec Verif.MN_Proofs.
Open Scope list_scope. Open Scope nat_scope.

(** Floats are numbers of one digit; cards of one core. *)
Definition sp (c : ascii) : bool := Ascii.eqb c " ".
Definition digit (s : text) : option Z := match s with [c] => let n := nat_of_ascii c in if (48 <=? n) && (n <=? 57) then Some (Z.of_nat n - 48)%Z else None | _ => None end.
Definition dflt (card n : text) : option (@val unit Z) :=
  if teqb n (t "ncores") then Some (VInt 1) else if teqb n (t "mode") && teqb card (t "TUNE") then Some (VStr (t "run")) else if teqb n (t "neorl_mode") then Some (VStr (t "run")) else None.
Definition kv (a b : string) : text * @value unit := (t a, Raw (t b)).
Definition g1 := [kv "env" "e"; kv "nactions" "2"; kv "xsize" "3"; kv "ysize" "1"]%string.
Definition ga1 := [kv "mode" "m"; kv "pop" "5"; kv "ngen" "4"]%string.
Definition sa1 := [kv "steps" "5"; kv "swap" "dual"; kv "flag" "False"]%string.
Definition a2c1 := [kv "mode" "train"]%string.
Definition algs1 : list (text * list (text * @value unit)) := [(t "A2C", a2c1); (t "GA", ga1); (t "SA", sa1)].
Definition setup1 g := setup sp digit (fun z => Some z) (fun _ : unit => []) 8 dflt g algs1.
Definition main1 g succeeds := main sp digit (fun z => Some z) (fun _ : unit => []) 8 dflt (fun _ => true) succeeds (Options (Some (t "in.inp")) None false false) (fun _ => Some (g, None, algs1)).
Example setup_ok : exists g' a, setup1 g1 = Some (g', a) /\ neorl_mode dflt g' = t "run".
Proof. vm_compute. eauto. Qed.
(** A2C and GA are started; SA is switched off but has its log file. *)
Example run1 : main1 g1 (fun _ => true) = ([ReadFile (t "in.inp"); LogFiles [t "A2C"; t "GA"; t "SA"]; Start (t "A2C"); Start (t "GA")], Ends).
Proof. vm_compute. reflexivity. Qed.
Definition g2 := g1 ++ [kv "neorl_mode" "chekc"]%string.
Example setup_ok2 : exists g' a, setup1 g2 = Some (g', a) /\ neorl_mode dflt g' = t "chekc".
Proof. vm_compute. eauto. Qed.
Example run2 : main1 g2 (fun _ => true) = ([ReadFile (t "in.inp"); LogFiles [t "A2C"; t "GA"; t "SA"]], Raises).
Proof. vm_compute. reflexivity. Qed.
Example run3 : main1 (g1 ++ [kv "neorl_mode" "test"]%string) (fun _ => true) = ([ReadFile (t "in.inp"); LogFiles [t "A2C"; t "GA"; t "SA"]], Ends).
Proof. vm_compute. reflexivity. Qed.
(** A TUNE card. *)
Definition u1 (mode : string) := [kv "method" "gridtune"; kv "mode" mode; kv "{gamma}" " 1,2"; kv "flag" "False"; kv "ncases" "7"]%string.
Definition tune1 mode := main sp digit (fun z => Some z) (fun _ : unit => []) 8 dflt (fun _ => true) (fun _ => true) (Options (Some (t "in.inp")) None false false) (fun _ => Some (g1, Some (u1 mode), algs1)).
Example tuned1 : tune1 "run" = ([ReadFile (t "in.inp"); Generate (t "gridtune"); RunCases], Ends) /\ tune1 "test" = ([ReadFile (t "in.inp"); Generate (t "gridtune")], Ends) /\
  tune1 "rnu" = ([ReadFile (t "in.inp"); Generate (t "gridtune")], Raises).
Proof. vm_compute. auto. Qed.
Example card1 : exists p, tune_check sp digit (fun z => Some z) (fun _ : unit => []) (fun _ => true) (u1 "run") = Some p /\ tune_final dflt p (t "{gamma}") = Some (Hole (Raw (t " 1,2"))) /\
  tune_final dflt p (t "ncases") = Some (Val (VInt 7)) /\ tune_final dflt p (t "flag") = Some (Val (VBool true)).
Proof. eexists. split; [vm_compute; reflexivity|]. vm_compute. auto. Qed.
(** A file that is to be checked only is not read. *)
Lemma check_demo files : main sp digit (fun z => Some z) (fun _ : unit => []) 8 dflt (fun _ => true) (fun _ => true) (Options None (Some (t "in.inp")) false false) files = ([Help], Leaves).
Proof. reflexivity. Qed.
