(** Concrete cases that meet the hypotheses of C120, and the counterexamples. *)
From Coq Require Import String List Arith QArith Qround Bool Lia.
From Verif Require Import OB_Model OB_Spec OB_Proofs.
Import ListNotations.
Open Scope list_scope. Open Scope nat_scope.

(** dtype 1 is an integer type: the fraction is dropped; dtype 0 leaves a number as it is. *)
Definition icast (t : dtype) (q : Q) : Q := match t with 1 => inject_Z (if Qle_bool 0 q then Qfloor q else Qceiling q) | _ => q end.
(** Two environments with a dictionary; the second has a further key. *)
Definition sp : space := SDict [("a"%string, ([2], 0)); ("b"%string, ([], 1))].
Definition e1 : obs := ODict [("b"%string, Arr [] [3%Q]); ("a"%string, Arr [2] [1#2; 1]%Q)].
Definition e2 : obs := ODict [("a"%string, Arr [2] [5; 6]%Q); ("c"%string, Arr [1] [9%Q]); ("b"%string, Arr [] [4%Q])].
Example demo_space : good_space sp.
Proof. repeat constructor; cbn; intuition discriminate. Qed.
Example demo_fits : forall o, In o [e1; e2] -> fits sp o /\ typed icast sp o.
Proof.
  assert (K : forall k b, entry sp k b -> (k = KName "a" /\ b = ([2], 0)) \/ (k = KName "b" /\ b = ([], 1))).
  { intros [|i|n] b; cbn; try contradiction. intros [E|[E|[]]]; injection E as <- <-; auto. }
  intros o [<-|[<-|[]]]; (split; [intros k b He; destruct (K k b He) as [[-> ->]|[-> ->]]; eexists; repeat split; reflexivity|]);
    intros k b a He Ha; destruct (K k b He) as [[-> ->]|[-> ->]]; cbn in Ha; injection Ha as <-; reflexivity.
Qed.
Example demo_dummy : dummy_obs icast sp [e1; e2] = Some (ODict [("a"%string, Arr [2; 2] [1#2; 1; 5; 6]%Q); ("b"%string, Arr [2] [3; 4]%Q)]).
Proof. reflexivity. Qed.
Example demo_flatten : flatten_obs sp [e1; e2] = Some (ODict [("a"%string, Arr [2; 2] [1#2; 1; 5; 6]%Q); ("b"%string, Arr [2] [3; 4]%Q)]).
Proof. reflexivity. Qed.
Example demo_buffers : exists bufs, save_all icast 0 [e2; e1] (buffers sp 2) = Some bufs /\ buffers_of sp 2 bufs /\ dummy_next icast sp bufs [e1; e2] = dummy_obs icast sp [e1; e2].
Proof. eexists. split; [reflexivity|]. split; [split; [reflexivity|repeat constructor]|reflexivity]. Qed.
(** Numbers of another type. *)
Lemma cast_differs : exists s os r1 r2, good_space s /\ (forall o, In o os -> fits s o) /\ dummy_obs icast s os = Some r1 /\ flatten_obs s os = Some r2 /\ r1 <> r2.
Proof.
  exists (SBox ([1], 1)), [OArr (Arr [1] [5#2]%Q)], (OArr (Arr [1; 1] [2%Q])), (OArr (Arr [1; 1] [5#2]%Q)).
  split; [exact I|]. split; [|split; [reflexivity|split; [reflexivity|discriminate]]].
  intros o [<-|[]] k b He. destruct k; cbn in He; try contradiction. subst b. eexists. repeat split; reflexivity.
Qed.
(** Arrays of another shape. *)
Lemma broadcast_differs : forall cast x y, (forall q, cast 0 q = q) ->
  let wide := SBox ([3], 0) in let narrow := OArr (Arr [1] [x]) in let full := OArr (Arr [3] [y; y; y]) in
  dummy_obs cast wide [narrow] = Some (OArr (Arr [1; 3] [x; x; x])) /\ flatten_obs wide [narrow] = Some (OArr (Arr [1; 1] [x])) /\
  dummy_obs cast wide [narrow; full] = Some (OArr (Arr [2; 3] [x; x; x; y; y; y])) /\ flatten_obs wide [narrow; full] = None.
Proof. intros cast x y H. cbn. rewrite !H. repeat split; reflexivity. Qed.
(** A dictionary space whose observation lacks a key. *)
Example demo_missing : dummy_obs icast sp [ODict [("a"%string, Arr [2] [1; 1]%Q)]] = None.
Proof. reflexivity. Qed.
