(** What C119 is stated with. *)
From Coq Require Import String List Arith Bool.
From Verif Require Import WR_Model.
Import ListNotations.
Open Scope list_scope. Open Scope nat_scope.

Section Spec.
Context {V : Type}.
(** The objects from the outermost to the innermost, and the wrappers among them. *)
Fixpoint objects (e : env V) : list (object V) := match e with Base o => [o] | Wrap o e' => o :: objects e' end.
Fixpoint wrappers (e : env V) : list (object V) := match e with Base _ => [] | Wrap o e' => o :: wrappers e' end.
Definition outermost (e : env V) : object V := match e with Base o => o | Wrap o _ => o end.
Fixpoint innermost (e : env V) : object V := match e with Base o => o | Wrap _ e' => innermost e' end.
(** The objects that have an attribute themselves, with its value, from the outside. *)
Definition owners (n : string) (e : env V) : list (string * V) :=
  flat_map (fun o => match dget n (own o) with Some v => [(cls o, v)] | None => [] end) (objects e).
(** Every wrapper went through its __init__. *)
Definition built (e : env V) : Prop := forall o, In o (wrappers e) -> dget "class_attributes" (inst o) <> None.
(** Enough calls for Python's limit on recursion: four more than there are wrappers. *)
Definition enough (fuel : nat) (e : env V) : Prop := length (wrappers e) + 4 <= fuel.
(** The statistics of an object. *)
Definition stats (o : object V) : option V * option V := (dget "obs_rms" (own o), dget "ret_rms" (own o)).
(** Every VecNormalize has statistics. *)
Definition normal (e : env V) : Prop :=
  forall o, In o (wrappers e) -> kind_of o = KNorm -> exists a b, stats o = (Some a, Some b).
(** Two objects of one kind that agree on all attributes but the statistics. *)
Definition same_but_stats (o p : object V) : Prop :=
  kind_of p = kind_of o /\ cls p = cls o /\ forall n, n <> "obs_rms"%string -> n <> "ret_rms"%string -> dget n (own p) = dget n (own o).
End Spec.
(** Names that a saved VecNormalize takes from its new environment. *)
Definition from_env (n : string) : bool := existsb (String.eqb n) ["venv"; "class_attributes"; "ret"; "num_envs"; "observation_space"; "action_space"]%string.
