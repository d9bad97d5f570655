(** C132: the registry of policies. *)
From Coq Require Import String List Arith Bool Lia.
From Verif Require Import NA_Model NA_Spec NA_Proofs NA_Final NA_Demo.
Import ListNotations.
Open Scope string_scope. Open Scope list_scope. Open Scope nat_scope.

(** C132: a policy that was registered is found by its name under the first direct subclass of BasePolicy that it
    belongs to. *)
Theorem C132_registered : forall cls cls_eq bases sub, decides cls_eq -> forall n p r b, snd (register cls cls_eq bases sub n p r) = true -> base_of cls bases sub p b ->
  get_policy cls cls_eq (fst (register cls cls_eq bases sub n p r)) b n = Returns p.
Proof. exact registered. Qed.
Print Assumptions C132_registered.

(** C132: no registration changes what is found for a name that is there. *)
Theorem C132_kept : forall cls cls_eq bases sub, decides cls_eq -> forall n p r b n' q, get_policy cls cls_eq r b n' = Returns q ->
  get_policy cls cls_eq (fst (register cls cls_eq bases sub n p r)) b n' = Returns q.
Proof. exact kept. Qed.
Print Assumptions C132_kept.

(** C132: it raises exactly if the policy belongs to no such class, or the name is taken under that class, even by
    the same policy. *)
Theorem C132_refused : forall cls cls_eq bases sub, decides cls_eq -> forall n p r, snd (register cls cls_eq bases sub n p r) = false <->
  (forall b, ~ base_of cls bases sub p b) \/ exists b q, base_of cls bases sub p b /\ get_policy cls cls_eq r b n = Returns q.
Proof. exact refused. Qed.
Print Assumptions C132_refused.

(** C132: after any registrations, some of which may have raised, a name stands for what it stood for before, and
    otherwise for the first policy of that class which was registered with it. *)
Theorem C132_history : forall cls cls_eq bases sub, decides cls_eq -> forall r l b n p, get_policy cls cls_eq (register_all cls cls_eq bases sub r l) b n = Returns p <->
  get_policy cls cls_eq r b n = Returns p \/ ((forall q, get_policy cls cls_eq r b n <> Returns q) /\ first_registered cls bases sub b n l p).
Proof. exact history. Qed.
Print Assumptions C132_history.
