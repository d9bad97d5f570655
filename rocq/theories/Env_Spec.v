(** Specification vocabulary for the optimization environment. *)
From Coq Require Import String List Arith ZArith QArith Qround Bool.
From Verif Require Import Base Space_Model Space_Spec Env_Model.
Import ListNotations.
Open Scope nat_scope.

(** A sensible space: bounds in order, integer variables with integer bounds, grids with a choice. *)
Definition wf_param (p : param) : Prop :=
  match p with
  | PInt lo hi => (lo <= hi)%Q /\ is_int lo /\ is_int hi
  | PFloat lo hi => (lo <= hi)%Q
  | PGrid cs => cs <> []
  end.
Definition wf_space (b : space) : Prop := dict b /\ Forall (fun kp => wf_param (snd kp)) b.

(** The number [q] of the observation stands for the value [v] of the parameter. *)
Definition stands_for (p : param) (q : Q) (v : val) : Prop :=
  match p with
  | PGrid cs => exists n, (q == inject_Z (Z.of_nat n))%Q /\ nth_error cs n = Some v
  | _ => v = VNum q
  end.

(** Observation [s] and individual [x] of the space [b] say the same. *)
Definition represents (b : space) (s : list Q) (x : list val) : Prop :=
  length s = length b /\ length x = length b /\
  forall i kp q v, nth_error b i = Some kp -> nth_error s i = Some q -> nth_error x i = Some v -> stands_for (snd kp) q v.

(** The interval of numbers standing for the values of a parameter, and whether they are integers. *)
Definition low (p : param) : Q := match p with PInt lo _ => lo | PFloat lo _ => lo | PGrid _ => 0%Q end.
Definition high (p : param) : Q :=
  match p with PInt _ hi => hi | PFloat _ hi => hi | PGrid cs => (inject_Z (Z.of_nat (length cs)) - 1)%Q end.
Definition integral (p : param) : bool := match p with PFloat _ _ => false | _ => true end.

(** Where -1 goes to [low], 1 to [high], linearly between. *)
Definition affine (p : param) (a : Q) : Q := (low p + (a + 1) * (1 # 2) * (high p - low p))%Q.

(** The coordinate [q] obtained from the action coordinate [a]. *)
Definition scaled (p : param) (a q : Q) : Prop :=
  ((a <= -1)%Q -> (q == low p)%Q) /\ ((1 <= a)%Q -> (q == high p)%Q) /\
  ((-1 <= a)%Q -> (a <= 1)%Q ->
     if integral p then exists z, drops_fraction (affine p a) z /\ (q == inject_Z z)%Q else (q == affine p a)%Q).

(** Whether an action belongs to the action space. *)
Definition legal (sp : aspace) (a : action) : Prop :=
  match sp, a with
  | ABox, ActBox v => Forall (fun x => (-1 <= x)%Q /\ (x <= 1)%Q) v
  | AMulti maps, ActMulti ix => Forall2 (fun m i => i < length m) maps ix
  | ADiscrete vals, ActOne i => i < length vals
  | _, _ => False
  end.

(** [q] is one of the numbers standing for the values of [p]; [s] belongs to the observation space. *)
Definition in_range (p : param) (q : Q) : Prop := (low p <= q)%Q /\ (q <= high p)%Q /\ (integral p = true -> is_int q).
Definition observable (b : space) (s : list Q) : Prop := Forall2 (fun kp q => in_range (snd kp) q) b s.

(** What samples of the observation space and random.randint deliver. *)
Definition obs_ok (b : space) (obs_sample : nat -> list Q) : Prop :=
  forall t, observable b (obs_sample t).
Definition randint_ok (randint : nat -> Z -> Z -> Z) : Prop := forall t lo hi, (lo <= hi)%Z -> (lo <= randint t lo hi <= hi)%Z.

(** A Python set lists every member once, in some order. *)
Definition set_listing (set_order : list Z -> list Z) : Prop :=
  forall l, NoDup (set_order l) /\ (forall z, In z (set_order l) <-> In z l).

(** Number of steps in a history. *)
Definition is_step (o : eop) : bool := match o with OStep _ => true | OReset => false end.
Definition steps (ops : list eop) : nat := length (filter is_step ops).

(** A history of complete episodes: resets, then repeatedly [L] steps and at least one reset. *)
Inductive complete (L : nat) : list eop -> Prop :=
| complete_start n : complete L (repeat OReset n)
| complete_more ops acts n : complete L ops -> length acts = L -> 1 <= n ->
    complete L (ops ++ map OStep acts ++ repeat OReset n).
