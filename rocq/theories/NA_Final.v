(** Scopes of layers and the registry of policies. *)
From Coq Require Import String List Arith Bool Lia.
From Verif Require Import NA_Model NA_Spec NA_Proofs.
Import ListNotations.
Open Scope string_scope. Open Scope list_scope. Open Scope nat_scope.

Lemma num_scope k i l x : In x (num_from k i l) -> exists j u, x = Layer k j u /\ i <= j.
Proof.
  unfold num_from. revert i. induction l as [|o l IH]; intros i; simpl; [contradiction|]. intros H. apply in_app_iff in H. destruct H as [H|H].
  - destruct o; simpl in H; [|contradiction]. destruct H as [<-|[]]. eauto.
  - destruct (IH _ H) as (j & u & -> & L). exists j, u. split; [reflexivity|lia].
Qed.
Lemma num_nodup k i l : NoDup (map scope (num_from k i l)).
Proof.
  unfold num_from. revert i. induction l as [|[u|] l IH]; intros i; simpl; [constructor| |apply IH]. constructor; [|apply IH].
  intros H. apply in_map_iff in H. destruct H as (x & E & I). apply (num_scope k (S i) l) in I. destruct I as (j & w & -> & L). injection E as E. lia.
Qed.
Lemma nodup_app {A} (l m : list A) : NoDup l -> NoDup m -> (forall x, In x l -> ~ In x m) -> NoDup (l ++ m).
Proof.
  intros L M D. induction L as [|x l N L IH]; simpl; [exact M|]. constructor.
  - rewrite in_app_iff. intros [H|H]; [contradiction|]. apply (D x); simpl; auto.
  - apply IH. intros y Y. apply D. simpl; auto.
Qed.
Theorem scopes shared pi vf : NoDup (map scope (numbered Shared shared ++ numbered Pi pi ++ numbered Vf vf)).
Proof.
  assert (D : forall k k' l l' x, k <> k' -> In x (map scope (numbered k l)) -> ~ In x (map scope (numbered k' l'))).
  { intros k k' l l' x N A B. apply in_map_iff in A. apply in_map_iff in B. destruct A as (y & <- & A). destruct B as (z & E & B).
    apply (num_scope k 0 l) in A. apply (num_scope k' 0 l') in B. destruct A as (j & u & -> & _). destruct B as (j' & u' & -> & _). injection E as E _. congruence. }
  rewrite !map_app. apply nodup_app; [apply num_nodup| |].
  - apply nodup_app; [apply num_nodup|apply num_nodup|]. intros x. apply D. discriminate.
  - intros x A. rewrite in_app_iff. intros [B|B]; revert B; eapply D; eauto; discriminate.
Qed.

Section Registry.
Variables (cls : Type) (cls_eq : cls -> cls -> bool) (bases : list cls) (sub : cls -> cls -> bool).
Hypothesis Eq : decides cls_eq.
Local Notation get := (get_policy cls cls_eq).
Local Notation reg := (register cls cls_eq bases sub).

Lemma eq_refl' a : cls_eq a a = true. Proof. now apply Eq. Qed.
Lemma find_base p b : find (sub p) bases = Some b <-> base_of cls bases sub p b.
Proof.
  unfold base_of. induction bases as [|c l IH]; simpl.
  - split; [discriminate|]. intros ([|x y] & after & E & _); discriminate.
  - destruct (sub p c) eqn:S.
    + split.
      * intros H. injection H as <-. exists [], l. repeat split; auto. intros c' [].
      * intros (before & after & E & H & N). destruct before as [|x before]; simpl in E; [congruence|]. injection E as <- E. rewrite (N c) in S; [discriminate|left; reflexivity].
    + rewrite IH. split.
      * intros (before & after & -> & H & N). exists (c :: before), after. repeat split; auto. intros c' [<-|I]; auto.
      * intros (before & after & E & H & N). destruct before as [|x before]; simpl in E; [congruence|]. injection E as <- E. exists before, after. repeat split; auto. intros c' I. apply N. right; exact I.
Qed.
Lemma entry_set b m r c : entry cls cls_eq c (set_entry cls cls_eq b m r) = if cls_eq c b then Some m else entry cls cls_eq c r.
Proof.
  induction r as [|[x y] r IH]; simpl; [reflexivity|]. destruct (cls_eq b x) eqn:E; simpl.
  - apply Eq in E. subst x. destruct (cls_eq c b); reflexivity.
  - rewrite IH. destruct (cls_eq c x) eqn:X; [|reflexivity]. apply Eq in X. subst x. destruct (cls_eq c b) eqn:F; [|reflexivity]. apply Eq in F. subst b. now rewrite eq_refl' in E.
Qed.
Lemma named_app n m k p : named cls n (m ++ [(k, p)]) = match named cls n m with Some q => Some q | None => if String.eqb n k then Some p else None end.
Proof. induction m as [|[j q] m IH]; simpl; [reflexivity|]. destruct (String.eqb n j); [reflexivity|apply IH]. Qed.

Lemma get_register n p r b n' : get (fst (reg n p r)) b n' =
  match get r b n' with Returns q => Returns q | Raises _ => match find (sub p) bases with Some b' => if cls_eq b b' && String.eqb n' n then Returns p else Raises ValueError | None => Raises ValueError end end.
Proof.
  unfold register. destruct (find (sub p) bases) as [b0|]; simpl.
  2:{ unfold get_policy. destruct (entry cls cls_eq b r) as [m|]; [|reflexivity]. destruct (named cls n' m); reflexivity. }
  destruct (entry cls cls_eq b0 r) as [m|] eqn:E.
  - rewrite E. destruct (named cls n m) as [q|] eqn:N; simpl.
    + unfold get_policy. destruct (cls_eq b b0) eqn:B.
      * apply Eq in B. subst b0. rewrite E. destruct (named cls n' m) eqn:N'; [reflexivity|]. destruct (String.eqb_spec n' n) as [->|]; [congruence|reflexivity].
      * destruct (entry cls cls_eq b r) as [m'|]; [|reflexivity]. destruct (named cls n' m'); reflexivity.
    + unfold get_policy. rewrite entry_set. destruct (cls_eq b b0) eqn:B.
      * apply Eq in B. subst b0. rewrite E. rewrite named_app. destruct (named cls n' m); [reflexivity|]. simpl. destruct (String.eqb n' n); reflexivity.
      * simpl. destruct (entry cls cls_eq b r) as [m'|]; [|reflexivity]. destruct (named cls n' m'); reflexivity.
  - rewrite entry_set, eq_refl'. simpl. unfold get_policy. rewrite !entry_set. destruct (cls_eq b b0) eqn:B.
    + apply Eq in B. subst b0. rewrite E. simpl. destruct (String.eqb n' n); reflexivity.
    + simpl. destruct (entry cls cls_eq b r) as [m'|]; [|reflexivity]. destruct (named cls n' m'); reflexivity.
Qed.

Theorem registered n p r b : snd (reg n p r) = true -> base_of cls bases sub p b -> get (fst (reg n p r)) b n = Returns p.
Proof.
  intros S B. apply find_base in B. rewrite get_register, B, eq_refl', String.eqb_refl. simpl. destruct (get r b n) as [q|] eqn:G; [|reflexivity].
  exfalso. unfold register in S. rewrite B in S. unfold get_policy in G. destruct (entry cls cls_eq b r) as [m|] eqn:E; [|discriminate]. rewrite E in S. destruct (named cls n m); [discriminate|discriminate G].
Qed.
Theorem kept n p r b n' q : get r b n' = Returns q -> get (fst (reg n p r)) b n' = Returns q.
Proof. intros H. now rewrite get_register, H. Qed.
Theorem refused n p r : snd (reg n p r) = false <-> (forall b, ~ base_of cls bases sub p b) \/ exists b q, base_of cls bases sub p b /\ get r b n = Returns q.
Proof.
  unfold register. destruct (find (sub p) bases) as [b|] eqn:F; simpl.
  - assert (B : base_of cls bases sub p b) by (now apply find_base). unfold get_policy.
    destruct (entry cls cls_eq b r) as [m|] eqn:E.
    + rewrite E. destruct (named cls n m) as [q|] eqn:N; simpl.
      * split; [|reflexivity]. intros _. right. exists b, q. rewrite E, N. auto.
      * split; [discriminate|]. intros [H|(b' & q & B' & H)]; [exfalso; exact (H b B)|]. apply find_base in B'. rewrite F in B'. injection B' as <-. rewrite E, N in H. discriminate.
    + rewrite entry_set, eq_refl'. simpl. split; [discriminate|]. intros [H|(b' & q & B' & H)]; [exfalso; exact (H b B)|]. apply find_base in B'. rewrite F in B'. injection B' as <-. rewrite E in H. discriminate.
  - split; [|reflexivity]. intros _. left. intros b B. apply find_base in B. congruence.
Qed.
Theorem history r l b n p : get (register_all cls cls_eq bases sub r l) b n = Returns p <->
  get r b n = Returns p \/ ((forall q, get r b n <> Returns q) /\ first_registered cls bases sub b n l p).
Proof.
  unfold register_all. revert r. induction l as [|[k q] l IH]; intros r; simpl.
  - split; [auto|]. intros [H|[_ (before & after & E & _)]]; [exact H|]. destruct before; discriminate.
  - rewrite IH. rewrite get_register. destruct (get r b n) as [x|e] eqn:G.
    + split; [intros [H|[H _]]; [left; exact H|exfalso; apply (H x); reflexivity]|]. intros [H|[H _]]; [left; exact H|exfalso; apply (H x); reflexivity].
    + assert (M : match find (sub q) bases with Some b' => if cls_eq b b' && String.eqb n k then Returns q else Raises ValueError | None => Raises ValueError end = (if match find (sub q) bases with Some b' => cls_eq b b' | None => false end && String.eqb n k then Returns q else Raises ValueError)).
      { destruct (find (sub q) bases); [reflexivity|]. reflexivity. }
      rewrite M. clear M.
      assert (C : match find (sub q) bases with Some b' => cls_eq b b' | None => false end = true <-> base_of cls bases sub q b).
      { rewrite <- find_base. destruct (find (sub q) bases) as [b'|]; [|split; discriminate]. rewrite (Eq b b'). split; [intros ->; reflexivity|intros H; injection H as ->; reflexivity]. }
      destruct (match find (sub q) bases with Some b' => cls_eq b b' | None => false end) eqn:F; simpl.
      * destruct (String.eqb_spec n k) as [<-|N].
        -- split.
           ++ intros [H|[H _]]; [|exfalso; apply (H q); reflexivity]. injection H as <-. right. split; [discriminate|]. exists [], l. repeat split; [now apply C|]. intros q' [].
           ++ intros [H|[_ (before & after & E & B & N)]]; [discriminate|]. left. destruct before as [|y before]; simpl in E; [congruence|]. injection E as <- E. exfalso. apply (N q); [left; reflexivity|now apply C].
        -- split.
           ++ intros [H|[_ (before & after & -> & B & M)]]; [discriminate|]. right. split; [discriminate|]. exists ((k, q) :: before), after. repeat split; auto. intros q' [H|H]; [congruence|auto].
           ++ intros [H|[_ (before & after & E & B & M)]]; [discriminate|]. right. split; [discriminate|]. destruct before as [|y before]; simpl in E; [congruence|]. injection E as <- E. exists before, after. repeat split; auto. intros q' H. apply M. right; exact H.
      * assert (NB : ~ base_of cls bases sub q b) by (intros B; apply C in B; discriminate).
        split.
        -- intros [H|[_ (before & after & -> & B & M)]]; [discriminate|]. right. split; [discriminate|]. exists ((k, q) :: before), after. repeat split; auto. intros q' [H|H]; [injection H as _ <-; exact NB|auto].
        -- intros [H|[_ (before & after & E & B & M)]]; [discriminate|]. right. split; [discriminate|]. destruct before as [|y before]; simpl in E; [injection E as _ ->; contradiction|]. injection E as <- E. exists before, after. repeat split; auto. intros q' H. apply M. right; exact H.
Qed.
End Registry.
