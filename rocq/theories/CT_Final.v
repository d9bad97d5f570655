(** What stands between columns, and the codes of the colours. *)
From Coq Require Import QArith Qabs Ascii String List Arith Bool Lia.
From Verif Require Import CT_Model CT_Spec CT_Proofs.
Import ListNotations.
Open Scope list_scope.
Open Scope nat_scope.

Lemma join_sep sep l n i : Forall (fun s => length s = n) l -> S i < length l -> part (i * (n + length sep) + n) (length sep) (join sep l) = sep.
Proof.
  revert i. induction l as [|a r IH]; intros i F I; [simpl in I; lia|]. inversion F as [|? ? A B]; subst. destruct r as [|b r]; [simpl in I; lia|].
  change (join sep (a :: b :: r)) with (a ++ sep ++ join sep (b :: r)). destruct i as [|i].
  - unfold part. simpl. rewrite skipn_past by lia. rewrite Nat.sub_diag. simpl. rewrite firstn_app, Nat.sub_diag, firstn_all. simpl. apply app_nil_r.
  - transitivity (part (i * (length a + length sep) + length a) (length sep) (join sep (b :: r))); [|apply (IH i B); simpl in *; lia]. unfold part. f_equal.
    rewrite skipn_past by (simpl; lia). rewrite skipn_past by (simpl; lia). f_equal. simpl. lia.
Qed.
Theorem row_separators fixed sci w row out i : Forall (fun x => dimensions x = 0 /\ length (rep fixed sci (inner x)) <= w) row ->
  fmt_row fixed sci w row false = Returns out -> S i < length row -> part (i * (w + 3) + w) 3 out = of_string " | ".
Proof.
  intros F E I. assert (D : Forall (fun x => dimensions x = 0) row) by (eapply Forall_impl; [|exact F]; intros y [Y _]; exact Y).
  unfold fmt_row in E. rewrite mapM_ok in E by assumption. injection E as <-.
  refine (join_sep (of_string " | ") _ w i _ _); [|rewrite map_length; exact I].
  apply Forall_map. eapply Forall_impl; [|exact F]. intros x [_ X]. simpl. rewrite fill_length. lia.
Qed.
Theorem other_text fixed sci s n : fmt_item fixed sci (Other s) n = Returns (repeat blank (n - length s) ++ s).
Proof. reflexivity. Qed.
Theorem color_codes s name front ground : In (name, (front, ground)) ansi ->
  colorize s name false false = Returns (escape :: of_string ("[" ++ front ++ "m") ++ s ++ escape :: of_string "[0m")
  /\ colorize s name false true = Returns (escape :: of_string ("[" ++ ground ++ "m") ++ s ++ escape :: of_string "[0m")
  /\ colorize s name true false = Returns (escape :: of_string ("[" ++ front ++ ";1m") ++ s ++ escape :: of_string "[0m")
  /\ colorize s name true true = Returns (escape :: of_string ("[" ++ ground ++ ";1m") ++ s ++ escape :: of_string "[0m").
Proof.
  intros H. unfold ansi in H. cbn [In] in H. repeat (destruct H as [H|H]; [injection H as <- <- <-; repeat split; reflexivity|]). destruct H.
Qed.
