(** C119: attributes of wrapped environments, and normalization statistics (see properties.jsonl). *)
From Coq Require Import String List Arith Bool.
From Verif Require Import WR_Model WR_Spec WR_Proofs WR_Demo.
Import ListNotations.
Open Scope list_scope. Open Scope nat_scope.

(** C119: env.n has the value the outermost object has itself; otherwise the value of the only object inside that has it. *)
Theorem C119_value : forall {V} (e : env V) n f v, built e -> enough f e ->
  (getattr f e n = Value v <-> dget n (own (outermost e)) = Some v \/ dget n (own (outermost e)) = None /\ exists c, owners n e = [(c, v)]).
Proof. exact @value_iff. Qed.
Print Assumptions C119_value.

(** C119: AttributeError without a message on hidden attributes: no object has it. *)
Theorem C119_missing : forall {V} (e : env V) n f, built e -> enough f e -> (getattr f e n = Missing <-> owners n e = []).
Proof. exact @missing_iff. Qed.
Print Assumptions C119_missing.

(** C119: the lookup is refused as ambiguous exactly if the outermost object does not have the attribute and two of the others do; the message names the outermost class and the second owner. *)
Theorem C119_ambiguous : forall {V} (e : env V) n f a b, built e -> enough f e ->
  (getattr f e n = Ambiguous a b <-> dget n (own (outermost e)) = None /\ a = cls (outermost e) /\ exists x v l, owners n e = x :: (b, v) :: l).
Proof. exact @ambiguous_iff. Qed.
Print Assumptions C119_ambiguous.

(** C119: a lookup ends within as many nested calls as there are wrappers, and four. *)
Theorem C119_ends : forall {V} (e : env V) n f, built e -> enough f e -> getattr f e n <> Recursion.
Proof. exact @recursion_never. Qed.
Print Assumptions C119_ends.

(** C119, finding: hasattr says no although there is such an attribute, if two wrappers have it. *)
Theorem C119_hasattr_refuted : exists (e : env nat) n f, built e /\ enough f e /\ owners n e <> [] /\ (forall v, getattr f e n <> Value v).
Proof. exact hasattr_witness. Qed.
Print Assumptions C119_hasattr_refuted.

(** C119: env.n = v is seen by env.n, changes no other attribute and no inner object. *)
Theorem C119_set : forall {V} (e : env V) n v f, 0 < f -> getattr f (setattr e n v) n = Value v.
Proof. exact @set_get. Qed.
Print Assumptions C119_set.

(** C119: what else an assignment changes: nothing. *)
Theorem C119_set_others : forall {V} (e : env V) n v, tl (objects (setattr e n v)) = tl (objects e) /\
  forall m, m <> n -> dget m (own (outermost (setattr e n v))) = dget m (own (outermost e)).
Proof. exact @set_others. Qed.
Print Assumptions C119_set_others.

(** C119, finding: an attribute that can be read through a wrapper cannot be set through it: env.training = False on a wrapper around VecNormalize leaves VecNormalize training. *)
Theorem C119_set_refuted : exists (e : env nat) n v p, built e /\ In p (wrappers e) /\ kind_of p = KNorm /\ dget n (own p) <> None /\
  (forall f, enough f e -> getattr f e n <> Missing /\ exists w, getattr f e n = Value w) /\ In p (wrappers (setattr e n v)) /\ dget n (own p) <> Some v.
Proof. exact set_witness. Qed.
Print Assumptions C119_set_refuted.

(** C119, finding: after such an assignment the attribute cannot be read any more through a further wrapper. *)
Theorem C119_set_raises : forall {V} o (e : env V) n v f, built (Wrap o (setattr e n v)) -> enough f (Wrap o (setattr e n v)) -> dget n (own o) = None ->
  (exists p w, In p (tl (objects e)) /\ dget n (own p) = Some w) ->
  exists c, getattr f (Wrap o (setattr e n v)) n = Ambiguous (cls o) c.
Proof. exact @set_hides. Qed.
Print Assumptions C119_set_raises.

(** C119: unwrap_vec_normalize gives the outermost VecNormalize, None if there is none. *)
Theorem C119_unwrap : forall {V} (e : env V) o, unwrap_vec_normalize e = Some o <->
  exists a b, wrappers e = a ++ o :: b /\ kind_of o = KNorm /\ forall p, In p a -> kind_of p <> KNorm.
Proof. exact @unwrap_iff. Qed.
Print Assumptions C119_unwrap.

(** C119: between environments with the same kinds of wrappers, syncing gives each VecNormalize of the second the statistics of its counterpart, and changes nothing else. *)
Theorem C119_sync : forall {V} (t e : env V), kind_of (outermost t) <> KUnvec -> normal t ->
  map kind_of (wrappers e) = map kind_of (wrappers t) ->
  snd (sync t e) = true /\ innermost (fst (sync t e)) = innermost e /\ length (wrappers (fst (sync t e))) = length (wrappers e) /\
  forall i o p q, nth_error (wrappers t) i = Some o -> nth_error (wrappers e) i = Some p -> nth_error (wrappers (fst (sync t e))) i = Some q ->
    same_but_stats p q /\ stats q = stats (if match kind_of p with KNorm => true | _ => false end then o else p).
Proof. exact @sync_norm. Qed.
Print Assumptions C119_sync.

(** C119: syncing raises exactly if the second environment has fewer wrappers. *)
Theorem C119_sync_accepts : forall {V} (t e : env V), kind_of (outermost t) <> KUnvec -> (snd (sync t e) = true <-> length (wrappers t) <= length (wrappers e)).
Proof. exact @sync_ok. Qed.
Print Assumptions C119_sync_accepts.

(** C119, finding: with the same wrappers in another order syncing raises nothing and the VecNormalize of the second keeps its own statistics. *)
Theorem C119_sync_refuted : exists (t e : env nat), built t /\ built e /\ normal t /\ normal e /\ snd (sync t e) = true /\
  (exists o p, unwrap_vec_normalize t = Some o /\ unwrap_vec_normalize (fst (sync t e)) = Some p /\ stats p <> stats o) /\
  length (filter (fun o => match kind_of o with KNorm => true | _ => false end) (wrappers e)) = 1.
Proof. exact sync_witness. Qed.
Print Assumptions C119_sync_refuted.

(** C119: nothing is synced from an environment as DQN holds it (_UnvecWrapper), whatever it wraps. *)
Theorem C119_sync_unvec : forall {V} o (t e : env V), kind_of o = KUnvec -> sync (Wrap o t) e = (e, true).
Proof. exact @sync_unvec. Qed.
Print Assumptions C119_sync_unvec.

(** C119: a saved VecNormalize can be loaded around an environment exactly if the shape of its observations is that of the statistics. *)
Theorem C119_load_accepts : forall d s v, getstate d = inl s -> (snd (load s v) = None <-> exists x, dget "obs_rms" d = Some (Rms (v_shape v) x)).
Proof. exact load_ok_iff. Qed.
Print Assumptions C119_load_accepts.

(** C119: it then has the new environment, its number of environments and its spaces, returns that are zero, and every other attribute as saved. *)
Theorem C119_load : forall d s v, getstate d = inl s -> snd (load s v) = None ->
  dget "venv" (fst (load s v)) = Some (EnvV v) /\ dget "num_envs" (fst (load s v)) = Some (Int (v_num v)) /\
  dget "observation_space" (fst (load s v)) = Some (Space (v_shape v)) /\ dget "action_space" (fst (load s v)) = Some (Space (v_action v)) /\
  dget "ret" (fst (load s v)) = Some (Zeros (v_num v)) /\ dget "class_attributes" (fst (load s v)) <> None /\
  forall n, from_env n = false -> dget n (fst (load s v)) = dget n d.
Proof. exact load_values. Qed.
Print Assumptions C119_load.

(** C119, finding: set_venv with an environment of another shape raises, but keeps that environment: a second call with the right one is refused. *)
Theorem C119_retry_raises : forall d s v, getstate d = inl s -> (forall x, dget "obs_rms" d <> Some (Rms (v_shape v) x)) ->
  snd (load s v) = Some Incompatible /\ dget "venv" (fst (load s v)) = Some (EnvV v) /\
  forall w, set_venv w (fst (load s v)) = (fst (load s v), Some AlreadyInitialized).
Proof. exact load_fails. Qed.
Print Assumptions C119_retry_raises.

(** C119, finding: an unpickled VecNormalize cannot be pickled again before set_venv. *)
Theorem C119_resave_raises : forall d s, getstate d = inl s -> getstate (setstate s) = inr KeyError.
Proof. exact resave_raises. Qed.
Print Assumptions C119_resave_raises.

(** C119, finding: before set_venv, a lookup on it of a name it does not have recurses without end instead of raising AttributeError (so hasattr raises as well). *)
Theorem C119_unpickled_raises : forall d s k, getstate d = inl s -> dget "class_attributes" k = None -> forall f e n c, dget n (setstate s ++ k) = None ->
  getattr f (Wrap (Obj KNorm c (setstate s) k) e) n = Recursion.
Proof. exact setstate_obj. Qed.
Print Assumptions C119_unpickled_raises.
