(** C40: stacked observations. *)
From Coq Require Import List Arith Bool QArith.
From Verif Require Import Base Opt_Model Stack_Model Stack_Spec Stack_Proofs Stack_Demo.
Import ListNotations.
Open Scope nat_scope.

(** After any history of calls, the observation handed out for environment [i] is the last [n]
    frames of its current episode, zero padded at the old end; the terminal observation of a
    finished episode stacks the true last frames. *)
Theorem C40_stack : forall {A} (zero : A) envs m w n, 0 < n -> forall es e, Forall (call_ok envs m w) es -> call_ok envs m w e ->
  let s := fst (stack_calls zero w (stack_new zero envs m w n) es) in
  let '(s', (ref, infos)) := stack_call zero w s e in
  length (nth ref (fs_heap s') []) = envs /\
  forall i, i < envs -> nth i (nth ref (fs_heap s') []) [] = stacked zero m w n (frames i (es ++ [e])) /\ terminal_ok zero m w n i es e infos.
Proof. exact @stack_correct. Qed.
Print Assumptions C40_stack.

(** What was handed out is not changed by later steps. *)
Theorem C40_stable : forall {A} (zero : A) envs m w n, 0 < n -> forall es e later, Forall (call_ok envs m w) es -> call_ok envs m w e ->
  Forall (fun e => match e with SStep _ _ _ => True | SReset _ => False end) later ->
  let s := fst (stack_calls zero w (stack_new zero envs m w n) es) in
  let '(s', (ref, _)) := stack_call zero w s e in
  nth ref (fs_heap (fst (stack_calls zero w s' later))) [] = nth ref (fs_heap s') [].
Proof. exact @stack_stable. Qed.
Print Assumptions C40_stable.

(** But reset overwrites it. *)
Theorem C40_alias_refuted : exists (es : list (@sev nat)) e obs, Forall (call_ok 1 1 1) es /\ call_ok 1 1 1 e /\ call_ok 1 1 1 (SReset obs) /\
  let s := fst (stack_calls 0 1 (stack_new 0 1 1 1 2) es) in
  let '(s', (ref, _)) := stack_call 0 1 s e in
  nth ref (fs_heap s') [] = [[[1; 2]]] /\ nth ref (fs_heap (fst (stack_call 0 1 s' (SReset obs)))) [] = [[[0; 9]]].
Proof. exact sk_alias. Qed.
Print Assumptions C40_alias_refuted.

(** Stacked observations lie in the announced space when the bounds are the same along the last axis
    and allow the zero padding. *)
Theorem C40_space : forall m w n lo hi fs, 0 < n -> Forall (shaped m w) fs -> (forall r, r < m -> (lo r <= 0 /\ 0 <= hi r)%Q) ->
  Forall (fun f => forall r, r < m -> Forall (fun x => lo r <= x /\ x <= hi r)%Q (nth r f [])) fs ->
  forall r, r < m -> in_row (repeat_axis n (repeat (lo r) w)) (repeat_axis n (repeat (hi r) w)) (nth r (stacked 0%Q m w n fs) []).
Proof. exact space_ok. Qed.
Print Assumptions C40_space.

(** With bounds that differ along the last axis they need not. *)
Theorem C40_space_refuted : exists lo hi (fs : list (list (list Q))), Forall (shaped 1 2) fs /\ Forall (fun f => in_row lo hi (nth 0 f [])) fs /\
  ~ in_row (repeat_axis 2 lo) (repeat_axis 2 hi) (nth 0 (stacked 0%Q 1 2 2 fs) []).
Proof. exact sk_space. Qed.
Print Assumptions C40_space_refuted.
