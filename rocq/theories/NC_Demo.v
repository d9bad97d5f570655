(** Concrete cases for the checks for nan and inf. *)
From Coq Require Import List Arith Lia ZArith QArith Qabs Bool.
From Verif Require Import NC_Model NC_Spec NC_Proofs.
Import ListNotations.
Open Scope nat_scope.

(** A vectorized environment that counts its steps and gives nan in every third observation. *)
Definition v_reset (v : nat) : nat * list num := (0, [Fin 0]).
Definition v_async (v : nat) (a : list num) : nat := S v.
Definition v_wait (v : nat) : nat * returned unit := (v, (if v mod 3 =? 0 then [NaN] else [Fin 1], [Fin 1], [Fin 0], tt)).
Definition round : list call := [CAsync [Fin 1]; CWait].
Definition rounds : list call := CReset :: round ++ round ++ round ++ round ++ round ++ round.
(** Two of the six observations hold a nan; one warning by default, two when every one is asked for. *)
Example demo_once : map (fun am => match snd am with Some m => Some (fst m) | None => None end) (snd (run v_reset v_async v_wait (Cfg false true true) start 0 rounds)) =
  [None; None; None; None; None; None; Some [(Observations, KNan)]; None; None; None; None; None; None].
Proof. reflexivity. Qed.
Example demo_always : map (fun am => match snd am with Some m => Some (snd m) | None => None end) (snd (run v_reset v_async v_wait (Cfg false false true) start 0 rounds)) =
  [None; None; None; None; None; None; Some (FromEnv [Fin 1]); None; None; None; None; None; Some (FromEnv [Fin 1])].
Proof. reflexivity. Qed.
Example demo_faulty : faulty_at v_reset v_async v_wait true 0 rounds 6 /\ forall j, j < 6 -> ~ faulty_at v_reset v_async v_wait true 0 rounds j.
Proof.
  pose proof (proj1 (warns_once v_reset v_async v_wait (Cfg false true true) rounds 0 6 eq_refl eq_refl)) as H. apply H. eexists. reflexivity.
Qed.
Example demo_message : nth_error (map snd (snd (run v_reset v_async v_wait (Cfg false true true) start 0 ([CReset] ++ [CAsync [PInf; NaN]])))) 1 =
  Some (Some ([(Actions, KInf); (Actions, KNan)], FromModel (Some [Fin 0]))).
Proof. reflexivity. Qed.
Example demo_raise : faulty v_reset v_wait true 3 CWait /\ ~ faulty v_reset v_wait true 4 CWait /\ faulty v_reset v_wait true 4 (CAsync [NInf]) /\ ~ faulty v_reset v_wait false 4 (CAsync [NInf]).
Proof.
  rewrite <- !(faulty_found v_reset v_wait (Cfg true true true)) || rewrite !(faulty_found v_reset v_wait (Cfg true true true)).
  rewrite (faulty_found v_reset v_wait (Cfg true true false) 4 (CAsync [NInf])). cbn. repeat split; try discriminate; intros H; now apply H.
Qed.

(** With exceptions the observation that was refused is forgotten: the message on the next actions names the one
    before it. *)
Definition caught : list call := [CReset; CAsync [Fin 1]; CAsync [Fin 1]; CAsync [Fin 1]; CWait; CAsync [NaN]].
Lemma stale : v_wait 3 = (3, ([NaN], [Fin 1], [Fin 0], tt)) /\
  map fst (snd (run v_reset v_async v_wait (Cfg true true true) start 0 caught)) =
    [AObs [Fin 0]; ANone; ANone; ANone; AError ([(Observations, KNan)], FromEnv [Fin 1]); AError ([(Actions, KNan)], FromModel (Some [Fin 0]))].
Proof. split; reflexivity. Qed.

(** An environment of which every episode has two steps and ends with nan in the observation. *)
Definition t_reset (e : nat) : nat * list num := (0, [Fin 0]).
Definition t_step (e : nat) (a : list num) : nat * (list num * num * bool) := match e with 0 => (1, ([Fin 0], Fin 1, false)) | _ => (2, ([NaN], Fin 1, true)) end.
Definition finite (x : num) : bool := match x with Fin _ => true | _ => false end.
Definition ten : list (list num) := repeat [Fin 1] 10.
Lemma terminal : (forall a, fst (fst (snd (t_step 1 a))) = [NaN]) /\
  exists l, check_env t_reset t_step (forallb finite) [Fin 1] ten 0 = Some (l, []) /\ ends l = 5.
Proof. split; [reflexivity|]. eexists. split; reflexivity. Qed.
(** An environment of episodes with one step, as those of the optimization by reinforcement learning. *)
Definition s_step (e : nat) (a : list num) : nat * (list num * num * bool) := (S e, ([Fin 0], Fin 1, true)).
Lemma late_demo : exists l, check_env t_reset s_step (forallb finite) [Fin 1] ten 0 = Some (l, []) /\ late l.
Proof.
  eexists. split; [reflexivity|]. exists [Reset]. do 2 eexists. cbn [app]. reflexivity.
Qed.
(** An environment with rewards that overflow is noticed. *)
Definition r_step (e : nat) (a : list num) : nat * (list num * num * bool) := (S e, ([Fin 0], if e <? 5 then Fin 1 else PInf, false)).
Example demo_check : exists l m, check_env t_reset r_step (forallb finite) [Fin 1] ten 0 = Some (l, [m]) /\ fst m = [(Rewards, KInf)].
Proof. do 2 eexists. split; reflexivity. Qed.
Lemma point_box : warn_box [((1 # 2)%Q, (1 # 2)%Q)] = false.
Proof. reflexivity. Qed.
