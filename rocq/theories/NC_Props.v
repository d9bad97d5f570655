(** The properties of the checks for nan and inf and of check_env (C115).  Nothing else is stated here. *)
From Coq Require Import List Arith ZArith QArith Qabs Bool.
From Verif Require Import NC_Model NC_Spec NC_Proofs NC_Demo.
Import ListNotations.
Open Scope nat_scope.

(** C115: without exceptions the wrapper is transparent: after any history of calls the environment is in the
    state, and the calls have given the answers, that they have without the wrapper. *)
Theorem C115_transparent : forall {V I} v_reset v_async (v_wait : V -> V * returned I) c ks v, raise_exception c = false ->
  snd (fst (run v_reset v_async v_wait c start v ks)) = fst (directly v_reset v_async v_wait v ks) /\
  map fst (snd (run v_reset v_async v_wait c start v ks)) = snd (directly v_reset v_async v_wait v ks).
Proof. exact @transparent. Qed.
Print Assumptions C115_transparent.

(** C115: in every configuration a history in which nothing is to be reported gives the answers of the
    environment, no warning and no exception. *)
Theorem C115_clean : forall {V I} v_reset v_async (v_wait : V -> V * returned I) c ks w v, (forall i, ~ faulty_at v_reset v_async v_wait (check_inf c) v ks i) ->
  snd (fst (run v_reset v_async v_wait c w v ks)) = fst (directly v_reset v_async v_wait v ks) /\
  snd (run v_reset v_async v_wait c w v ks) = map (fun a => (a, None)) (snd (directly v_reset v_async v_wait v ks)).
Proof. exact @clean. Qed.
Print Assumptions C115_clean.

(** C115: by default exactly the first call that passes or returns a nan or an infinity warns, and no other. *)
Theorem C115_once : forall {V I} v_reset v_async (v_wait : V -> V * returned I) c ks v i, raise_exception c = false -> warn_once c = true ->
  (exists m, nth_error (map snd (snd (run v_reset v_async v_wait c start v ks))) i = Some (Some m)) <->
  faulty_at v_reset v_async v_wait (check_inf c) v ks i /\ forall j, j < i -> ~ faulty_at v_reset v_async v_wait (check_inf c) v ks j.
Proof. exact @warns_once. Qed.
Print Assumptions C115_once.

(** C115: with warn_once=False every such call warns, and no other. *)
Theorem C115_always : forall {V I} v_reset v_async (v_wait : V -> V * returned I) c ks v i, raise_exception c = false -> warn_once c = false ->
  (exists m, nth_error (map snd (snd (run v_reset v_async v_wait c start v ks))) i = Some (Some m)) <-> faulty_at v_reset v_async v_wait (check_inf c) v ks i.
Proof. exact @warns_always. Qed.
Print Assumptions C115_always.

(** C115: with exceptions such a call raises and no other does; actions are refused before the environment gets
    them, but observations after it has moved. *)
Theorem C115_raises : forall {V I} v_reset v_async (v_wait : V -> V * returned I) c w v k, raise_exception c = true ->
  (~ faulty v_reset v_wait (check_inf c) v k -> exists w', do_call v_reset v_async v_wait c w v k = (w', fst (direct v_reset v_async v_wait v k), snd (direct v_reset v_async v_wait v k), None)) /\
  (faulty v_reset v_wait (check_inf c) v k -> exists w' m, do_call v_reset v_async v_wait c w v k = (w', match k with CAsync _ => v | _ => fst (direct v_reset v_async v_wait v k) end, AError m, None)).
Proof. exact @raising. Qed.
Print Assumptions C115_raises.

(** C115: a warning names exactly the arrays with an infinity or a nan, and beside them the observations last
    returned if they are actions, otherwise the actions last given since the reset, if any. *)
Theorem C115_message : forall {V I} v_reset v_async (v_wait : V -> V * returned I) c ks k v m, raise_exception c = false ->
  nth_error (map snd (snd (run v_reset v_async v_wait c start v (ks ++ [k])))) (length ks) = Some (Some m) ->
  (forall n q, In (n, q) (fst m) <-> exists l, In (n, l) (arrays v_reset v_wait (fst (directly v_reset v_async v_wait v ks)) k) /\ holds (check_inf c) l q) /\
  snd m = match k with
          | CAsync _ => FromModel (last_seen (snd (directly v_reset v_async v_wait v ks)) None)
          | CReset => AtReset
          | CWait => match last_given ks None with None => AtReset | Some a => FromEnv a end
          end.
Proof. exact @message_last. Qed.
Print Assumptions C115_message.

(** C115: with exceptions that the caller catches the message can name an older observation than the last one:
    an observation that was refused is not remembered. *)
Theorem C115_stale_refuted : v_wait 3 = (3, ([NaN], [Fin 1], [Fin 0], tt)) /\
  map fst (snd (run v_reset v_async v_wait (Cfg true true true) start 0 [CReset; CAsync [Fin 1]; CAsync [Fin 1]; CAsync [Fin 1]; CWait; CAsync [NaN]])) =
    [AObs [Fin 0]; ANone; ANone; ANone; AError ([(Observations, KNan)], FromEnv [Fin 1]); AError ([(Actions, KNan)], FromModel (Some [Fin 0]))].
Proof. exact stale. Qed.
Print Assumptions C115_stale_refuted.

(** C115: check_env resets once, takes one step, then one for each further action with a reset after every end;
    it steps an episode that is over exactly if the first step ended it. *)
Theorem C115_check : forall {E} e_reset (e_step : E -> list num -> E * (list num * num * bool)) inside a0 acts e l ms, check_env e_reset e_step inside a0 acts e = Some (l, ms) ->
  exists d rest, l = Reset :: Step d :: rest /\ steps rest = length acts /\ resets rest = ends rest /\ (late l <-> d = true /\ acts <> []).
Proof. exact @checked. Qed.
Print Assumptions C115_check.

(** C115: check_env warns at most once, and exactly if an action, or an observation or reward as returned after
    the automatic reset, holds a nan or an infinity. *)
Theorem C115_check_warns : forall {E} e_reset (e_step : E -> list num -> E * (list num * num * bool)) inside a0 acts e l ms e1 o1 e2 o2 r d,
  e_reset e = (e1, o1) -> e_step e1 a0 = (e2, (o2, r, d)) -> check_env e_reset e_step inside a0 acts e = Some (l, ms) ->
  length ms <= 1 /\
  (ms = [] <-> forall i, ~ faulty_at (d_reset e_reset) d_async (d_wait e_reset e_step) true (e2, [], [Reset; Step d]) (flat_map (fun a => [CAsync a; CWait]) acts) i).
Proof. exact @checked_messages. Qed.
Print Assumptions C115_check_warns.

(** C115: so a nan in every last observation of an episode is not noticed: five episodes end with one and the check
    passes without a warning. *)
Theorem C115_terminal_refuted : (forall a, fst (fst (snd (t_step 1 a))) = [NaN]) /\
  exists l, check_env t_reset t_step (forallb finite) [Fin 1] (repeat [Fin 1] 10) 0 = Some (l, []) /\ ends l = 5.
Proof. exact terminal. Qed.
Print Assumptions C115_terminal_refuted.

(** C115: check_env itself breaks the protocol it checks: an environment whose episodes have one step is stepped
    after the end without a reset. *)
Theorem C115_late_refuted : exists l, check_env t_reset s_step (forallb finite) [Fin 1] (repeat [Fin 1] 10) 0 = Some (l, []) /\ late l.
Proof. exact late_demo. Qed.
Print Assumptions C115_late_refuted.

(** C115: the recommendation on a Box of actions is absent exactly if all its bounds have the same size, at most
    1, on both sides. *)
Theorem C115_box : forall bounds, warn_box bounds = false <-> Forall (fun b => (Qabs (fst b) == Qabs (snd b))%Q /\ (Qabs (fst b) <= 1)%Q) bounds.
Proof. exact warn_box_spec. Qed.
Print Assumptions C115_box.

(** C115: which is not to say that the Box is symmetric. *)
Theorem C115_symmetric_refuted : warn_box [((1 # 2)%Q, (1 # 2)%Q)] = false.
Proof. exact point_box. Qed.
Print Assumptions C115_symmetric_refuted.
