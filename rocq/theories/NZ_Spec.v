(** What C127 is stated with. *)
From Coq Require Import Reals List Arith Bool.
From Verif Require Import NZ_Model.
Import ListNotations.
Open Scope R_scope.
(** The noise of the last call or reset. *)
Definition noise (w : world) : list R := heap w (prev w).
(** The draws of the calls since the last reset. *)
Fixpoint since (ps : list op) (acc : list (list R)) : list (list R) :=
  match ps with
  | [] => acc
  | Call z :: rest => since rest (acc ++ [z])
  | Reset :: rest => since rest []
  | Write _ _ :: rest => since rest acc
  end.
(** Nothing is written to the array that was returned last and to the initial noise, or to arrays that do not exist. *)
Fixpoint careful (o : ou) (ps : list op) (w : world) : Prop :=
  match ps with
  | [] => True
  | p :: rest =>
      match p with Write a _ => a <> prev w /\ initial_noise o <> Some a /\ (a < next w)%nat | _ => True end
      /\ forall w', exec o w p = Some w' -> careful o rest w'
  end.
(** The process of Ornstein and Uhlenbeck after the draws zs of one component, from x0: r = 1 - theta dt. *)
Definition sum (l : list R) : R := fold_right Rplus 0 l.
Definition walk (th d m s x0 : R) (zs : list R) : R :=
  let r := 1 - th * d in
  m + r ^ length zs * (x0 - m) + s * sqrt d * sum (map (fun p => r ^ fst p * snd p) (combine (seq 0 (length zs)) (rev zs))).
Definition component_of (j : nat) (zs : list (list R)) : list R := map (fun z => nth j z 0) zs.
(** Draws for all components, and an initial noise of the right size which exists. *)
Definition draws (n : nat) (ps : list op) : Prop := Forall (fun p => match p with Call z => length z = n | _ => True end) ps.
Definition origin (o : ou) (h : nat -> list R) (n : nat) : list R := match initial_noise o with Some a => h a | None => repeat 0 n end.
Definition count (p : R -> bool) (l : list R) : nat := length (filter p l).
Definition above (d x : R) : bool := if Rlt_dec d x then true else false.
