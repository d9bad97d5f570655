(** Examples for the layers of policy networks and the registry. *)
From Coq Require Import String List Arith Bool Lia.
From Verif Require Import NA_Model NA_Spec NA_Proofs NA_Final.
Import ListNotations.
Open Scope string_scope. Open Scope list_scope. Open Scope nat_scope.

(** [55, dict(vf=[255, 255], pi=[128])], as in the documentation. *)
Definition doc : list arch := [AInt 55; ADict [("vf", DList [IInt 255; IInt 255]); ("pi", DList [IInt 128])]].
Example doc1 : mlp_extractor Flat doc = Returns (Dense Pi 0 128 (Dense Shared 0 55 Flat), Dense Vf 1 255 (Dense Vf 0 255 (Dense Shared 0 55 Flat))) /\ describes doc [55] [Some 128] [Some 255; Some 255].
Proof. split; [reflexivity|]. eexists. split; [reflexivity|]. right. do 2 eexists. split; [reflexivity|]. split; right; reflexivity. Qed.
Example default1 : feed_forward Mlp false None None = Returns (Dense Pi 1 64 (Dense Pi 0 64 Flat), Dense Vf 1 64 (Dense Vf 0 64 Flat)).
Proof. reflexivity. Qed.
(** A dict that is not last: the layer after it is lost. *)
Lemma lost : feed_forward Mlp false None (Some [ADict [("pi", DList [IInt 8])]; AInt 32; ABad]) = Returns (Dense Pi 0 8 Flat, Flat).
Proof. reflexivity. Qed.
(** None among the sizes is left out. *)
Lemma hole : mlp_extractor Flat [ADict [("pi", DList [INone; IInt 8])]] = Returns (Dense Pi 1 8 Flat, Flat) /\ describes [ADict [("pi", DList [INone; IInt 8])]] [] [None; Some 8] [].
Proof. split; [reflexivity|]. eexists. split; [reflexivity|]. right. do 2 eexists. split; [reflexivity|]. split; [right; reflexivity|left; split; reflexivity]. Qed.
Example lstm1 : lstm_policy Mlp false 16 None (Some [AInt 8; ALstm; ADict [("vf", DList [IInt 4])]]) = Returns (Lstm 16 (Dense Shared 0 8 Flat), Dense Vf 0 4 (Lstm 16 (Dense Shared 0 8 Flat))).
Proof. reflexivity. Qed.
Example lstm2 : lstm_policy Mlp false 16 None (Some [ALstm; ALstm]) = Raises ValueError /\ lstm_policy Mlp false 16 None (Some [AInt 4]) = Raises ValueError /\ lstm_policy Mlp false 16 None (Some [ALstm; ADict [("pi", DList [ILstm])]]) = Raises NotImplementedError /\
  nones [None; None] = 2 /\ describes_lstm [AInt 4] [Some 4] (map Some []) (map Some []).
Proof. repeat split. exists []. split; [reflexivity|left; auto]. Qed.
Example lstm3 : lstm_policy Mlp false 16 None None = Returns (Lstm 16 (Dense Pi 1 64 (Dense Pi 0 64 Flat)), Lstm 16 (Dense Pi 1 64 (Dense Pi 0 64 Flat))).
Proof. reflexivity. Qed.
(** A 'lstm' after the dict does not count. *)
Lemma lstm_after : lstm_policy Mlp false 16 None (Some [AInt 8; ADict []; ALstm]) = Raises ValueError /\ lstm_policy Mlp false 16 None (Some [ALstm; ADict []; ALstm]) = Returns (Lstm 16 Flat, Lstm 16 Flat).
Proof. split; reflexivity. Qed.

(** Classes 0 and 1 are the bases; even policies belong to 0, odd ones to 1. *)
Definition parity (p b : nat) : bool := Nat.even p && (b =? 0) || Nat.odd p && (b =? 1).
Lemma nat_decides : decides Nat.eqb. Proof. intros a b. apply Nat.eqb_eq. Qed.
Definition reg1 : registry nat := register_all nat Nat.eqb [0; 1] parity [] [("Mlp", 2); ("Mlp", 3); ("Mlp", 4); ("Cnn", 4)].
Example registry1 : get_policy nat Nat.eqb reg1 0 "Mlp" = Returns 2 /\ get_policy nat Nat.eqb reg1 1 "Mlp" = Returns 3 /\ get_policy nat Nat.eqb reg1 0 "Cnn" = Returns 4 /\ get_policy nat Nat.eqb reg1 1 "Cnn" = Raises ValueError.
Proof. repeat split. Qed.
Example base1 : base_of nat [0; 1] parity 3 1 /\ snd (register nat Nat.eqb [0; 1] parity "Mlp" 3 []) = true.
Proof. split; [|reflexivity]. exists [0], []. repeat split. intros c [<-|[]]. reflexivity. Qed.
