(** What is claimed of the layers of policy networks and of the registry. *)
From Coq Require Import String List Arith Bool Lia.
From Verif Require Import NA_Model.
Import ListNotations.
Open Scope string_scope. Open Scope list_scope. Open Scope nat_scope.

(** A network as the list of its layers, from the input to the output. *)
Inductive level := Layer (k : kind) (i units : nat) | Memory (cells : nat).
Definition build (input : net) (l : list level) : net := fold_left (fun n x => match x with Layer k i u => Dense k i u n | Memory c => Lstm c n end) l input.

(** Layers with the numbers of their places in a list; nothing for None. *)
Definition numbered (k : kind) (l : list (option nat)) : list level :=
  flat_map (fun x => match snd x with Some u => [Layer k (fst x) u] | None => [] end) (combine (seq 0 (length l)) l).
(** The same with the LSTM for None. *)
Definition with_memory (cells : nat) (l : list (option nat)) : list level :=
  map (fun x => match snd x with Some u => Layer Shared (fst x) u | None => Memory cells end) (combine (seq 0 (length l)) l).
(** How often None is there. *)
Definition nones (l : list (option nat)) : nat := length (filter (fun o => match o with None => true | _ => false end) l).

(** Sizes written as a list in Python, None for None. *)
Definition items (l : list (option nat)) : list item := map (fun o => match o with Some n => IInt n | None => INone end) l.
(** The dict has this list of sizes under the key, or neither key nor sizes. *)
Definition given (k : string) (d : list (string * dval)) (l : list (option nat)) : Prop := (dget k d = None /\ l = []) \/ dget k d = Some (DList (items l)).
(** net_arch is sizes of shared layers, possibly followed by a dict with the others; what follows the dict does
    not matter. *)
Definition ends (rest : list arch) (pi vf : list (option nat)) : Prop :=
  (rest = [] /\ pi = [] /\ vf = []) \/ exists d r, rest = ADict d :: r /\ given "pi" d pi /\ given "vf" d vf.
Definition describes (a : list arch) (shared : list nat) (pi vf : list (option nat)) : Prop := exists rest, a = map AInt shared ++ rest /\ ends rest pi vf.
(** The same with 'lstm' for None among the shared layers. *)
Definition front (l : list (option nat)) : list arch := map (fun o => match o with Some n => AInt n | None => ALstm end) l.
Definition describes_lstm (a : list arch) (shared : list (option nat)) (pi vf : list (option nat)) : Prop := exists rest, a = front shared ++ rest /\ ends rest pi vf.

(** ** Registry *)
Section Registry.
Variables (cls : Type) (bases : list cls) (sub : cls -> cls -> bool).
(** The class under which a policy is registered: the first direct subclass of BasePolicy it belongs to. *)
Definition base_of (p b : cls) : Prop := exists before after, bases = before ++ b :: after /\ sub p b = true /\ forall c, In c before -> sub p c = false.
(** The first policy of this base and name in a list. *)
Definition first_registered (b : cls) (n : string) (l : list (string * cls)) (p : cls) : Prop :=
  exists before after, l = before ++ (n, p) :: after /\ base_of p b /\ forall q, In (n, q) before -> ~ base_of q b.
End Registry.

(** The variable scope of a layer. *)
Definition scope (x : level) : option (kind * nat) := match x with Layer k i _ => Some (k, i) | Memory _ => None end.
(** A decidable equality. *)
Definition decides {A} (eqb : A -> A -> bool) : Prop := forall a b, eqb a b = true <-> a = b.
