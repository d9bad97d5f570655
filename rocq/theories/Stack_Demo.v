(** Concrete frame stacks. *)
From Coq Require Import List Arith Lia Bool QArith.
From Verif Require Import Base Opt_Model Stack_Model Stack_Spec Stack_Proofs.
Import ListNotations.
Open Scope nat_scope.

Ltac sk := repeat (cbv beta; match goal with
  | |- call_ok _ _ _ _ => cbn [call_ok] | |- _ /\ _ => split | |- shaped _ _ _ => split | |- Forall _ [] => constructor | |- Forall _ (_ :: _) => constructor
  | |- _ = _ => reflexivity | |- forall f, _ = Some f -> _ => let E := fresh in intros ? E; first [discriminate E | injection E as <-] end).
(** Two environments, one row of one entry, three frames. *)
Definition sk_events : list (@sev nat) :=
  [SReset [[[1]]; [[11]]]; SStep [[[2]]; [[12]]] [false; false] [None; None];
   SStep [[[3]]; [[21]]] [false; true] [None; Some [[13]]]; SStep [[[4]]; [[22]]] [false; false] [None; None]].
Example sk_ok : Forall (call_ok 2 1 1) sk_events.
Proof. unfold sk_events. sk. Qed.
Example sk_run : let '(s, os) := stack_calls 0 1 (stack_new 0 2 1 1 3) sk_events in
  map (fun o => (nth (fst o) (fs_heap s) [], snd o)) os =
  [([[[0; 0; 1]]; [[0; 0; 11]]], []); ([[[0; 1; 2]]; [[0; 11; 12]]], [None; None]);
   ([[[1; 2; 3]]; [[0; 0; 21]]], [None; Some [[11; 12; 13]]]); ([[[2; 3; 4]]; [[0; 21; 22]]], [None; None])].
Proof. reflexivity. Qed.

(** The observation handed out by a step is overwritten by the next reset. *)
Lemma sk_alias : exists (es : list (@sev nat)) e obs, Forall (call_ok 1 1 1) es /\ call_ok 1 1 1 e /\ call_ok 1 1 1 (SReset obs) /\
  let s := fst (stack_calls 0 1 (stack_new 0 1 1 1 2) es) in
  let '(s', (ref, _)) := stack_call 0 1 s e in
  nth ref (fs_heap s') [] = [[[1; 2]]] /\ nth ref (fs_heap (fst (stack_call 0 1 s' (SReset obs)))) [] = [[[0; 9]]].
Proof.
  exists [SReset [[[1]]]], (SStep [[[2]]] [false] [None]), [[[9]]]. cbv zeta. sk. cbn. split; reflexivity.
Qed.
(** The announced space repeats every bound, while the frames are laid side by side. *)
Lemma sk_space : exists lo hi (fs : list (list (list Q))), Forall (shaped 1 2) fs /\ Forall (fun f => in_row lo hi (nth 0 f [])) fs /\
  ~ in_row (repeat_axis 2 lo) (repeat_axis 2 hi) (nth 0 (stacked 0%Q 1 2 2 fs) []).
Proof.
  exists [0%Q; 10%Q], [1%Q; 11%Q], [[[1 # 2; 10]]; [[1 # 2; 10]]]%Q. split; [repeat constructor|]. split; [repeat constructor; cbv; discriminate|].
  intros [_ H]. cbn in H. inversion H as [|? ? ? ? Ha Hb]. inversion Hb as [|? ? ? ? Hc Hd]. cbv in Hc. apply Hc. reflexivity.
Qed.
