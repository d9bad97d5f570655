(** Which arrays one process takes for a row of a buffer. *)
From Coq Require Import String List Arith QArith Bool Lia.
From Verif Require Import OB_Model OB_Spec OB_Proofs.
Import ListNotations.
Open Scope list_scope. Open Scope nat_scope.

Lemma all_some_ne {A} (l : list (option A)) : all_some l <> None <-> Forall (fun x => x <> None) l.
Proof.
  induction l as [|[a|] l IH]; simpl.
  - split; [constructor|discriminate].
  - destruct (all_some l) as [r|]; simpl.
    + split; [intros _; constructor; [discriminate|apply IH; discriminate]|discriminate].
    + split; [intros H; exfalso; apply H; reflexivity|]. intros H. exfalso. apply (proj2 IH); [inversion H; auto|reflexivity].
  - split; [intros H; exfalso; apply H; reflexivity|]. intros H. inversion H; subst. contradiction.
Qed.
Lemma chunks_length k len d : length (chunks k len d) = k.
Proof. revert d. induction k as [|k IH]; intros d; simpl; [reflexivity|]. now rewrite IH. Qed.
Lemma option_map_ne {A B} (f : A -> B) x : option_map f x <> None <-> x <> None.
Proof. destruct x; simpl; split; intros; auto; discriminate. Qed.

Lemma broadcast_iff v t d : Forall (lt 0) t -> (broadcast v t d <> None <-> Forall2 matches v t).
Proof.
  revert t d. induction v as [|a v IH]; intros [|b t] d P; simpl.
  - split; [constructor|discriminate].
  - split; [congruence|intros H; inversion H].
  - split; [congruence|intros H; inversion H].
  - pose proof (Forall_inv P) as Pb. pose proof (Forall_inv_tail P) as Pt. destruct (Nat.eqb_spec a b) as [->|N].
    + rewrite option_map_ne, all_some_ne. split.
      * intros H. constructor; [left; reflexivity|]. destruct (chunks b (size v) d) as [|c r] eqn:E; [pose proof (chunks_length b (size v) d) as L; rewrite E in L; simpl in L; lia|].
        simpl in H. apply Forall_inv in H. apply (IH t c Pt). exact H.
      * intros H. inversion H; subst. apply Forall_forall. intros x I. apply in_map_iff in I. destruct I as (c & <- & _). apply (IH t c Pt). assumption.
    + destruct (Nat.eqb_spec a 1) as [->|M].
      * rewrite option_map_ne, (IH t d Pt). split; intros H; [constructor; [right; reflexivity|exact H]|inversion H; auto].
      * split; [congruence|]. intros H. inversion H; subst. unfold matches in *. lia.
Qed.
Lemma drop_ones_iff k v v' : drop_ones k v = Some v' <-> k <= length v /\ Forall (eq 1) (firstn k v) /\ v' = skipn k v.
Proof.
  revert v. induction k as [|k IH]; intros v; simpl.
  - split; [intros H; injection H as <-; repeat split; [lia|constructor]|intros (_ & _ & ->); reflexivity].
  - destruct v as [|[|[|a]] v]; simpl; try (split; [discriminate|intros (L & F & _); try lia; inversion F; discriminate]).
    rewrite IH. split; intros (L & F & E); repeat split; auto; try lia; inversion F; auto.
Qed.
Lemma matches_pad k v t : length v + k = length t -> (Forall2 matches (repeat 1 k ++ v) t <-> Forall2 matches v (skipn k t)).
Proof.
  revert t. induction k as [|k IH]; intros t L; simpl; [tauto|]. destruct t as [|b t]; simpl in *; [lia|].
  rewrite <- (IH t) by lia. split; intros H; [inversion H; auto|constructor; [right; reflexivity|exact H]].
Qed.
Lemma assign_iff t a : Forall (lt 0) t -> (assign t a <> None <-> fills t (shape a)).
Proof.
  intros P. unfold assign, fills. destruct (Nat.leb_spec (length (shape a)) (length t)) as [L|L].
  - rewrite broadcast_iff, matches_pad by (auto; lia). split; [intros H; left; auto|intros [[_ H]|[H _]]; [exact H|lia]].
  - destruct (drop_ones _ _) as [v|] eqn:E.
    + apply drop_ones_iff in E. destruct E as (_ & F & ->). rewrite broadcast_iff by auto. split; [intros H; right; auto|intros [[H _]|[_ [_ H]]]; [lia|exact H]].
    + split; [congruence|]. intros [[H _]|[_ [F _]]]; [lia|]. exfalso.
      assert (drop_ones (length (shape a) - length t) (shape a) = Some (skipn (length (shape a) - length t) (shape a))) by (apply drop_ones_iff; repeat split; auto; lia). congruence.
Qed.
Theorem row_accepts cast t dt a : Forall (lt 0) t -> (dummy_obs cast (SBox (t, dt)) [OArr a] <> None <-> fills t (shape a)).
Proof.
  intros P. rewrite <- (assign_iff t a P). unfold dummy_obs. simpl. destruct (assign t a); simpl; split; intros; auto; discriminate.
Qed.
Example row_demo : Forall (lt 0) [2; 3] /\ fills [2; 3] [1; 2; 3] /\ fills [2; 3] [1] /\ ~ fills [2; 3] [2; 2; 3] /\ ~ fills [2; 3] [2].
Proof.
  unfold fills. simpl. split; [repeat constructor|]. split; [right; repeat split; [lia|repeat constructor|repeat constructor]|].
  split; [left; repeat split; [lia|repeat constructor; right; reflexivity]|].
  split; intros [[A B]|[A B]]; try lia; simpl in *.
  - destruct B as [B _]. inversion B. lia.
  - inversion B; subst. unfold matches in *. lia.
Qed.
