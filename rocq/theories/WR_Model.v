(** Model of the attributes of wrapped vectorised environments: VecEnvWrapper.__getattr__
    (neorl/rl/baselines/shared/vec_env/base_vec_env.py:172-305), unwrap_vec_normalize and sync_envs_normalization
    (vec_env/__init__.py:16-52), and saving and loading VecNormalize (vec_env/vec_normalize.py:47-83, 155-171).

    An object has a class name, the attributes of its instance and those of its class.  Properties count as
    attributes with a value.  Copies are values. *)
From Coq Require Import String List Arith Bool.
Import ListNotations.
Open Scope list_scope. Open Scope nat_scope.

Definition dict (V : Type) := list (string * V).
Fixpoint dget {V} (n : string) (d : dict V) : option V := match d with [] => None | (m, v) :: r => if String.eqb n m then Some v else dget n r end.
Definition has {V} (n : string) (d : dict V) : bool := match dget n d with Some _ => true | None => false end.
(** d[n] = v, del d[n]. *)
Definition dput {V} (n : string) (v : V) (d : dict V) : dict V := (n, v) :: d.
Definition ddel {V} (n : string) (d : dict V) : dict V := filter (fun p => negb (String.eqb n (fst p))) d.

(** The wrappers that are told apart: VecNormalize, _UnvecWrapper, others. *)
Inductive kind := KNorm | KUnvec | KOther.
Record object (V : Type) := Obj { kind_of : kind; cls : string; inst : dict V; klass : dict V }.
Arguments Obj {V}. Arguments kind_of {V}. Arguments cls {V}. Arguments inst {V}. Arguments klass {V}.
(** A VecEnv, wrapped or not (the kind of the innermost object has no meaning). *)
Inductive env (V : Type) := Base (o : object V) | Wrap (o : object V) (e : env V).
Arguments Base {V}. Arguments Wrap {V}.

Section Lookup.
Context {V : Type}.
(** What the object has itself: the attributes of the instance, then those of the class. *)
Definition own (o : object V) : dict V := inst o ++ klass o.
(** A result; what has no value raises AttributeError (with the classes named in the message of __getattr__, if it
    is that one), or recurses until Python gives up. *)
Inductive result (X : Type) := Value (x : X) | Missing | Ambiguous (own_class blocked : string) | Recursion.
Arguments Value {X}. Arguments Missing {X}. Arguments Ambiguous {X}. Arguments Recursion {X}.

(** One unit of [fuel] for each call. *)
Fixpoint getattr (fuel : nat) (e : env V) (n : string) {struct fuel} : result V :=        (* e.n *)
  match fuel with
  | 0 => Recursion
  | S f =>
      match e with
      | Base o => match dget n (own o) with Some v => Value v | None => Missing end
      | Wrap o _ =>
          match dget n (own o) with
          | Some v => Value v
          | None =>                                                       (* __getattr__ (249-262) *)
              match depth_check f e n false with
              | Value (Some c) => Ambiguous (cls o) c
              | Value None => recursive f e n
              | Missing => Missing | Ambiguous a b => Ambiguous a b | Recursion => Recursion
              end
          end
      end
  end
(** getattr_depth_check (179-189, 290-305). *)
with depth_check (fuel : nat) (e : env V) (n : string) (already_found : bool) {struct fuel} : result (option string) :=
  match fuel with
  | 0 => Recursion
  | S f =>
      match e with
      | Base o => Value (if has n (own o) && already_found then Some (cls o) else None)
      | Wrap o e' =>
          match all_attributes f e with
          | Value d => if has n d then if already_found then Value (Some (cls o)) else depth_check f e' n true else depth_check f e' n already_found
          | Missing => Missing | Ambiguous a b => Ambiguous a b | Recursion => Recursion
          end
      end
  end
(** getattr_recursive (273-288). *)
with recursive (fuel : nat) (e : env V) (n : string) {struct fuel} : result V :=
  match fuel with
  | 0 => Recursion
  | S f =>
      match e with
      | Base _ => getattr f e n
      | Wrap o e' =>
          match all_attributes f e with
          | Value d => if has n d then getattr f e n else match e' with Wrap _ _ => recursive f e' n | Base _ => getattr f e' n end
          | Missing => Missing | Ambiguous a b => Ambiguous a b | Recursion => Recursion
          end
      end
  end
(** _get_all_attributes (264-271): self.class_attributes, set in __init__, is looked up like any other attribute. *)
with all_attributes (fuel : nat) (e : env V) {struct fuel} : result (dict V) :=
  match fuel with
  | 0 => Recursion
  | S f =>
      match e with
      | Base o => Value (own o)
      | Wrap o _ =>
          match getattr f e "class_attributes" with
          | Value _ => Value (own o)
          | Missing => Missing | Ambiguous a b => Ambiguous a b | Recursion => Recursion
          end
      end
  end.

(** e.n = v: an attribute of the outermost object. *)
Definition set_obj (n : string) (v : V) (o : object V) : object V := Obj (kind_of o) (cls o) (dput n v (inst o)) (klass o).
Definition setattr (e : env V) (n : string) (v : V) : env V := match e with Base o => Base (set_obj n v o) | Wrap o e' => Wrap (set_obj n v o) e' end.

(** unwrap_vec_normalize (__init__.py:16-26). *)
Fixpoint unwrap_vec_normalize (e : env V) : option (object V) :=
  match e with Base _ => None | Wrap o e' => match kind_of o with KNorm => Some o | _ => unwrap_vec_normalize e' end end.

(** The loop of sync_envs_normalization (43-52): eval_env afterwards, and whether the assertion holds throughout. *)
Fixpoint sync_loop (t e : env V) : env V * bool :=
  match t with
  | Base _ => (e, true)
  | Wrap o t' =>
      let e1 := match kind_of o, dget "obs_rms" (own o), dget "ret_rms" (own o) with
                | KNorm, Some a, Some b => setattr (setattr e "obs_rms" a) "ret_rms" b
                | _, _, _ => e
                end in
      match e1 with
      | Base _ => (e1, false)
      | Wrap p e' => let (e2, ok) := sync_loop t' e' in (Wrap p e2, ok)
      end
  end.
(** sync_envs_normalization (30-52). *)
Definition sync (t e : env V) : env V * bool :=
  match t with Wrap o _ => match kind_of o with KUnvec => (e, true) | _ => sync_loop t e end | Base _ => sync_loop t e end.
End Lookup.
Arguments Value {X}. Arguments Missing {X}. Arguments Ambiguous {X}. Arguments Recursion {X}.

(** ** Saving and loading VecNormalize *)
(** The values: running statistics with their shape, zeros, None, an environment with what a wrapper takes over
    from it, spaces with their shape, numbers, the dictionary of class attributes, anything else. *)
Record venv := Venv { v_id : nat; v_num : nat; v_shape : list nat; v_action : list nat }.
Inductive val := Rms (shape : list nat) (data : nat) | Zeros (n : nat) | NoneV | EnvV (v : venv) | Space (shape : list nat) | Int (n : nat) | Members | Other (x : nat).
Definition shape_eqb (a b : list nat) : bool := if list_eq_dec Nat.eq_dec a b then true else false.
(** What a call does to the object: the object afterwards, and the exception. *)
Inductive error := KeyError | AlreadyInitialized | Incompatible.
(** __getstate__ (47-59): del of a name that is not there raises. *)
Definition getstate (d : dict val) : dict val + error :=
  if has "venv" d && has "class_attributes" d && has "ret" d then inl (ddel "ret" (ddel "class_attributes" (ddel "venv" d))) else inr KeyError.
(** __setstate__ (61-69), on a new object. *)
Definition setstate (state : dict val) : dict val := dput "venv" NoneV state.
(** VecEnvWrapper.__init__ (base_vec_env.py:215-219). *)
Definition wrapper_init (v : venv) (d : dict val) : dict val :=
  dput "class_attributes" Members (dput "action_space" (Space (v_action v)) (dput "observation_space" (Space (v_shape v)) (dput "num_envs" (Int (v_num v)) (dput "venv" (EnvV v) d)))).
(** set_venv (71-83). *)
Definition set_venv (v : venv) (d : dict val) : dict val * option error :=
  match dget "venv" d with
  | Some NoneV =>
      let d1 := wrapper_init v d in
      match dget "obs_rms" d1 with
      | Some (Rms s _) => if shape_eqb s (v_shape v) then (dput "ret" (Zeros (v_num v)) d1, None) else (d1, Some Incompatible)
      | _ => (d1, Some Incompatible)
      end
  | _ => (d, Some AlreadyInitialized)
  end.
(** save (169-171), and load (155-167) of what was saved. *)
Definition load (state : dict val) (v : venv) : dict val * option error := set_venv v (setstate state).
(** __init__ (28-45) with the statistics and the other attributes. *)
Definition new (v : venv) (r : nat) (others : dict val) : dict val :=
  dput "ret" (Zeros (v_num v)) (dput "ret_rms" (Rms [] r) (dput "obs_rms" (Rms (v_shape v) r) (wrapper_init v others))).
