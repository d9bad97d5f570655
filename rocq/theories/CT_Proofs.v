(** Proofs about texts for consoles. *)
From Coq Require Import QArith Qabs Ascii String List Arith Bool Lia.
From Verif Require Import CT_Model CT_Spec.
Import ListNotations.
Open Scope list_scope.
Open Scope nat_scope.

Section P.
Variables (fixed sci : Q -> text).
Notation rep := (rep fixed sci). Notation fmt_item := (fmt_item fixed sci). Notation fmt_row := (fmt_row fixed sci).

Lemma fill_length w s : length (fill w s) = Nat.max w (length s).
Proof. unfold fill. rewrite app_length, repeat_length. lia. Qed.
Lemma fmt_item_eq x w : fmt_item x w = match dimensions x with 0 => Returns (fill w (rep (inner x))) | S _ => Raises end.
Proof. unfold CT_Model.fmt_item, unpack. destruct x as [q|s|[|n] y]; reflexivity. Qed.
Theorem item_text x w : (dimensions x = 0 -> exists k, fmt_item x w = Returns (repeat blank k ++ rep (inner x)) /\ k + length (rep (inner x)) = Nat.max w (length (rep (inner x)))) /\
  (dimensions x <> 0 -> fmt_item x w = Raises).
Proof.
  rewrite fmt_item_eq. split.
  - intros ->. exists (w - length (rep (inner x))). split; [reflexivity|lia].
  - intros H. destruct (dimensions x); [now elim H|reflexivity].
Qed.
Theorem float_format q : ((1 # 10000 <= Qabs q /\ Qabs q <= 10000 # 1)%Q \/ q == 0 -> rep (Float q) = fixed q) /\
  (((Qabs q < 1 # 10000)%Q \/ (10000 # 1 < Qabs q)%Q) -> ~ q == 0 -> rep (Float q) = sci q).
Proof.
  unfold CT_Model.rep. split.
  - intros [[A B]|Z].
    + apply Qle_bool_iff in A. apply Qle_bool_iff in B. rewrite A, B. reflexivity.
    + assert (Qle_bool (Qabs q) 0 = true) as ->; [|now rewrite andb_false_r]. apply Qle_bool_iff. rewrite Z. apply Qle_refl.
  - intros H Z. assert (P : Qle_bool (Qabs q) 0 = false).
    { destruct (Qle_bool (Qabs q) 0) eqn:E; [|reflexivity]. elim Z. apply Qle_bool_iff in E. apply Qabs_Qle_condition in E. destruct E. apply Qle_antisym; assumption. }
    rewrite P. replace (negb (Qle_bool (1 # 10000) (Qabs q)) || negb (Qle_bool (Qabs q) (10000 # 1)))%bool with true; [reflexivity|].
    symmetry. apply orb_true_iff. destruct H as [H|H]; [left|right]; apply negb_true_iff; apply not_true_is_false; intros E; apply Qle_bool_iff in E; exact (Qlt_not_le _ _ H E).
Qed.

Lemma mapM_ok w row : Forall (fun x => dimensions x = 0) row -> mapM (fun x => fmt_item x w) row = Returns (map (fun x => fill w (rep (inner x))) row).
Proof. induction 1 as [|x r H _ IH]; [reflexivity|]. simpl. rewrite fmt_item_eq, H, IH. reflexivity. Qed.
Lemma mapM_raises w row : Exists (fun x => dimensions x <> 0) row -> mapM (fun x => fmt_item x w) row = Raises.
Proof.
  induction 1 as [x r H|x r _ IH]; simpl.
  - rewrite fmt_item_eq. destruct (dimensions x); [now elim H|reflexivity].
  - rewrite IH. destruct (fmt_item x w); reflexivity.
Qed.
Lemma join_length sep l n : l <> [] -> Forall (fun s => length s = n) l -> length (join sep l) + length sep = length l * (n + length sep).
Proof.
  induction l as [|a r IH]; intros H F; [now elim H|]. inversion F as [|? ? A B]; subst. destruct r as [|b r].
  - simpl. lia.
  - change (join sep (a :: b :: r)) with (a ++ sep ++ join sep (b :: r)). rewrite !app_length. specialize (IH ltac:(discriminate) B). simpl length in *. nia.
Qed.
Lemma join_min sep l n : l <> [] -> Forall (fun s => n <= length s) l -> length l * (n + length sep) <= length (join sep l) + length sep.
Proof.
  induction l as [|a r IH]; intros H F; [now elim H|]. inversion F as [|? ? A B]; subst. destruct r as [|b r].
  - simpl. lia.
  - change (join sep (a :: b :: r)) with (a ++ sep ++ join sep (b :: r)). rewrite !app_length. specialize (IH ltac:(discriminate) B). simpl length in *. nia.
Qed.
Lemma skipn_past {A} (s t : list A) n : length s <= n -> skipn n (s ++ t) = skipn (n - length s) t.
Proof. intros H. rewrite skipn_app, skipn_all2 by lia. reflexivity. Qed.
Lemma join_part sep l n d i : Forall (fun s => length s = n) l -> i < length l -> part (i * (n + length sep)) n (join sep l) = nth i l d.
Proof.
  revert i. induction l as [|a r IH]; intros i F I; [simpl in I; lia|]. inversion F as [|? ? A B]; subst. destruct r as [|b r].
  - simpl in I. replace i with 0 by lia. unfold part. simpl. rewrite <- (app_nil_r a) at 2. rewrite firstn_app, Nat.sub_diag, firstn_all. simpl. now rewrite app_nil_r.
  - change (join sep (a :: b :: r)) with (a ++ sep ++ join sep (b :: r)). destruct i as [|i].
    + unfold part. simpl. rewrite firstn_app, Nat.sub_diag, firstn_all. simpl. apply app_nil_r.
    + change (nth (S i) (a :: b :: r) d) with (nth i (b :: r) d). rewrite <- (IH i B) by (simpl in *; lia). unfold part. f_equal. rewrite skipn_past by (simpl; lia). rewrite skipn_past by (simpl; lia). f_equal. simpl. lia.
Qed.
Theorem row_columns w row : row <> [] -> Forall (fun x => dimensions x = 0 /\ length (rep (inner x)) <= w) row -> exists out, fmt_row w row false = Returns out /\
  length out + 3 = length row * (w + 3) /\ forall i x, nth_error row i = Some x -> fmt_item x w = Returns (part (i * (w + 3)) w out).
Proof.
  intros N F. assert (D : Forall (fun x => dimensions x = 0) row) by (eapply Forall_impl; [|exact F]; intros y [Y _]; exact Y).
  unfold CT_Model.fmt_row. rewrite mapM_ok by assumption. eexists. split; [reflexivity|].
  assert (L : Forall (fun s => length s = w) (map (fun x => fill w (rep (inner x))) row)).
  { apply Forall_map. eapply Forall_impl; [|exact F]. intros x [_ X]. simpl. rewrite fill_length. lia. }
  split.
  - pose proof (join_length (of_string " | ") (map (fun x => fill w (rep (inner x))) row) w ltac:(destruct row; [now elim N|discriminate]) L) as J. rewrite map_length in J. exact J.
  - intros i x X. assert (I : i < length row) by (apply nth_error_Some; congruence).
    change (w + 3) with (w + length (of_string " | ")). rewrite (join_part _ _ w [] i L) by (rewrite map_length; exact I).
    rewrite fmt_item_eq. rewrite Forall_forall in D. rewrite (D x) by (eapply nth_error_In; eauto). f_equal.
    symmetry. apply nth_error_nth. rewrite nth_error_map, X. reflexivity.
Qed.
Theorem row_least w row : row <> [] -> Forall (fun x => dimensions x = 0) row -> exists out, fmt_row w row false = Returns out /\ length row * (w + 3) <= length out + 3.
Proof.
  intros N D. unfold CT_Model.fmt_row. rewrite mapM_ok by assumption. eexists. split; [reflexivity|].
  pose proof (join_min (of_string " | ") (map (fun x => fill w (rep (inner x))) row) w ltac:(destruct row; [now elim N|discriminate])) as J. rewrite map_length in J. apply J.
  apply Forall_map. apply Forall_forall. intros x _. rewrite fill_length. lia.
Qed.
Theorem row_header w row : (forall out, fmt_row w row false = Returns out -> fmt_row w row true = Returns (out ++ newline :: repeat dash (length out))) /\
  (forall h, fmt_row w row h = Raises <-> Exists (fun x => dimensions x <> 0) row).
Proof.
  split.
  - intros out. unfold CT_Model.fmt_row. destruct (mapM _ row); [|discriminate]. intros E. injection E as <-. reflexivity.
  - intros h. split.
    + intros E. destruct (Forall_Exists_dec (fun x => dimensions x = 0) (fun x => Nat.eq_dec (dimensions x) 0) row) as [F|X]; [|exact X].
      unfold CT_Model.fmt_row in E. rewrite mapM_ok in E by assumption. discriminate.
    + intros X. unfold CT_Model.fmt_row. now rewrite mapM_raises.
Qed.
End P.

(** Columns shift behind an item that is too long. *)
Theorem row_shift fixed sci : exists w r1 r2 o1 o2, length r1 = length r2 /\ fmt_row fixed sci w r1 false = Returns o1 /\ fmt_row fixed sci w r2 false = Returns o2 /\ length o1 <> length o2 /\
  nth_error r1 1 = nth_error r2 1 /\ part (w + 3) w o1 <> part (w + 3) w o2.
Proof.
  exists 1, [Other (of_string "a"); Other (of_string "b")], [Other (of_string "long"); Other (of_string "b")]. do 2 eexists.
  split; [reflexivity|]. split; [reflexivity|]. split; [reflexivity|]. split; [discriminate|]. split; [reflexivity|discriminate].
Qed.

(** ** Colours *)
Lemma lookup_in c n : lookup c colors = Some n -> In (c, n) colors.
Proof.
  generalize colors. induction l as [|[k v] r IH]; simpl; [discriminate|]. destruct (String.eqb_spec c k) as [->|]; [|auto]. intros E. injection E as ->. now left.
Qed.
Theorem color_text s c b h : (forall num, lookup c colors = Some num ->
    colorize s c b h = Returns (prefix_of (if h then num + 10 else num) b ++ s ++ [escape] ++ of_string "[0m")) /\ (lookup c colors = None <-> colorize s c b h = Raises).
Proof.
  unfold colorize. split.
  - intros num ->. unfold prefix_of. f_equal. destruct b; simpl; now rewrite ?app_nil_r, <- ?app_assoc.
  - destruct (lookup c colors); split; try discriminate; reflexivity.
Qed.
Lemma all_colors s c b h o : colorize s c b h = Returns o -> exists num, In (c, num) colors /\ o = prefix_of (if h then num + 10 else num) b ++ s ++ [escape] ++ of_string "[0m".
Proof.
  destruct (lookup c colors) as [num|] eqn:E.
  - intros H. destruct (color_text s c b h) as [A _]. rewrite (A num E) in H. injection H as <-. exists num. split; [now apply lookup_in|reflexivity].
  - intros H. destruct (color_text s c b h) as [_ A]. apply A in E. congruence.
Qed.
(** The first five characters tell all settings apart. *)
Definition settings : list (string * nat * bool * bool) := list_prod (list_prod colors [true; false]) [true; false].
Definition start (x : string * nat * bool * bool) : text := let '(_, n, b, h) := x in firstn 5 (prefix_of (if h then n + 10 else n) b).
Definition same_setting (x y : string * nat * bool * bool) : bool :=
  let '(c, _, b, h) := x in let '(c', _, b', h') := y in String.eqb c c' && Bool.eqb b b' && Bool.eqb h h'.
Lemma starts_differ : forallb (fun x => forallb (fun y => implb (if list_eq_dec ascii_dec (start x) (start y) then true else false) (same_setting x y)) settings) settings = true.
Proof. vm_compute. reflexivity. Qed.
Lemma in_settings c n b h : In (c, n) colors -> In (c, n, b, h) settings.
Proof. intros H. apply in_prod; [apply in_prod; [exact H|destruct b; simpl; auto]|destruct h; simpl; auto]. Qed.
Lemma start_is n b (h : bool) rest : firstn 5 (prefix_of n b ++ rest) = firstn 5 (prefix_of n b).
Proof. destruct b; reflexivity. Qed.
Theorem color_distinct s s' c b h c' b' h' o : colorize s c b h = Returns o -> colorize s' c' b' h' = Returns o -> c = c' /\ b = b' /\ h = h' /\ s = s'.
Proof.
  intros H H'. destruct (all_colors _ _ _ _ _ H) as (n & I & E1). destruct (all_colors _ _ _ _ _ H') as (n' & I' & E2).
  assert (S : start (c, n, b, h) = start (c', n', b', h')).
  { unfold start. rewrite <- (start_is _ b h (s ++ [escape] ++ of_string "[0m")), <- (start_is _ b' h' (s' ++ [escape] ++ of_string "[0m")). now rewrite <- E1, <- E2. }
  pose proof starts_differ as D. rewrite forallb_forall in D. specialize (D _ (in_settings c n b h I)). cbv beta in D. rewrite forallb_forall in D.
  specialize (D _ (in_settings c' n' b' h' I')). cbv beta in D. destruct (list_eq_dec ascii_dec _ _) as [_|N]; [|contradiction]. cbn [implb] in D.
  unfold same_setting in D. apply andb_true_iff in D. destruct D as [D D3]. apply andb_true_iff in D. destruct D as [D1 D2].
  apply String.eqb_eq in D1. apply Bool.eqb_prop in D2. apply Bool.eqb_prop in D3. subst c' b' h'.
  repeat split; auto. destruct (color_text s c b h) as [A _]. destruct (color_text s' c b h) as [A' _].
  destruct (lookup c colors) as [m|] eqn:L; [|destruct (color_text s c b h) as [_ B]; apply B in L; congruence].
  rewrite (A m eq_refl) in H. rewrite (A' m eq_refl) in H'. rewrite <- H' in H. injection H as H. apply app_inv_head in H. now apply app_inv_tail in H.
Qed.
Theorem color_stripped s c b h o : colorize s c b h = Returns o -> exists k, part k (length s) o = s /\ length o = k + length s + 4 /\ k = if b then 7 else 5.
Proof.
  intros H. destruct (all_colors _ _ _ _ _ H) as (n & _ & ->). exists (if b then 7 else 5).
  set (m := if h then n + 10 else n). assert (L : length (prefix_of m b) = if b then 7 else 5) by (destruct b; reflexivity).
  split; [|split; [|reflexivity]].
  - unfold part. rewrite skipn_past by lia. rewrite L, Nat.sub_diag. simpl skipn. rewrite firstn_app, Nat.sub_diag, firstn_all. simpl. apply app_nil_r.
  - rewrite !app_length, L. simpl. lia.
Qed.
