(** C131: the layers of policy networks. *)
From Coq Require Import String List Arith Bool Lia.
From Verif Require Import NA_Model NA_Spec NA_Proofs NA_Final NA_Demo.
Import ListNotations.
Open Scope string_scope. Open Scope list_scope. Open Scope nat_scope.

(** C131: mlp_extractor returns exactly if net_arch is sizes of shared layers, possibly followed by a dict of
    lists of sizes; the networks are the shared layers with those of pi, or of vf, on top, each named after its
    place in its list. *)
Theorem C131_mlp : forall flat a p v, mlp_extractor flat a = Returns (p, v) <->
  exists shared pi vf, describes a shared pi vf /\ p = build flat (numbered Shared (map Some shared) ++ numbered Pi pi) /\ v = build flat (numbered Shared (map Some shared) ++ numbered Vf vf).
Proof. exact mlp_iff. Qed.
Print Assumptions C131_mlp.

(** C131: otherwise it raises AssertionError. *)
Theorem C131_mlp_error : forall flat a e, mlp_extractor flat a = Raises e -> e = AssertionError.
Proof. exact mlp_error. Qed.
Print Assumptions C131_mlp_error.

(** C131: if all layers are shared, policy and value use one network. *)
Theorem C131_shared : forall flat shared, exists p, mlp_extractor flat (map AInt shared) = Returns (p, p).
Proof. exact mlp_shared. Qed.
Print Assumptions C131_shared.

(** C131: no two layers have the same scope, so no variables are shared by accident. *)
Theorem C131_scopes : forall shared pi vf, NoDup (map scope (numbered Shared shared ++ numbered Pi pi ++ numbered Vf vf)).
Proof. exact scopes. Qed.
Print Assumptions C131_scopes.

(** C131: whatever follows the first dict is dropped without being looked at. *)
Theorem C131_rest_refuted : (forall flat a d r, mlp_extractor flat (a ++ ADict d :: r) = mlp_extractor flat (a ++ [ADict d])) /\
  feed_forward Mlp false None (Some [ADict [("pi", DList [IInt 8])]; AInt 32; ABad]) = Returns (Dense Pi 0 8 Flat, Flat).
Proof. exact (conj mlp_rest lost). Qed.
Print Assumptions C131_rest_refuted.

(** C131: None among the sizes of a branch is accepted and skipped. *)
Theorem C131_none_refuted : mlp_extractor Flat [ADict [("pi", DList [INone; IInt 8])]] = Returns (Dense Pi 1 8 Flat, Flat).
Proof. exact (proj1 hole). Qed.
Print Assumptions C131_none_refuted.

(** C131: a FeedForwardPolicy with MLP features uses net_arch if it is given, whatever the layers are, ... *)
Theorem C131_arch : forall layers a, feed_forward Mlp false layers (Some a) = mlp_extractor Flat a.
Proof. exact ff_arch. Qed.
Print Assumptions C131_arch.

(** C131: ... and otherwise separate networks for policy and value with the given layers, 64 and 64 by default. *)
Theorem C131_layers : forall layers p v, feed_forward Mlp false layers None = Returns (p, v) <->
  exists s, items s = match layers with Some l => l | None => [IInt 64; IInt 64] end /\ p = build Flat (numbered Pi s) /\ v = build Flat (numbered Vf s).
Proof. exact ff_layers. Qed.
Print Assumptions C131_layers.

(** C131: with CNN features both parameters, and unknown keywords, are accepted and have no effect on the layers. *)
Theorem C131_cnn_refuted : forall extra layers net_arch, feed_forward Cnn extra layers net_arch = Returns (Features, Features).
Proof. exact ff_cnn. Qed.
Print Assumptions C131_cnn_refuted.

(** C131: with MLP features unknown keywords raise. *)
Theorem C131_keywords : forall n layers net_arch, feed_forward Mlp true layers net_arch = Raises ValueError /\ lstm_policy Mlp true n layers net_arch = Raises ValueError.
Proof. exact unknown_keywords. Qed.
Print Assumptions C131_keywords.

(** C131: an LstmPolicy with net_arch is made exactly if 'lstm' is there once among the shared layers; the LSTM
    has that place. *)
Theorem C131_lstm : forall c layers a p v, lstm_policy Mlp false c layers (Some a) = Returns (p, v) <->
  exists sh pi vf, describes_lstm a sh (map Some pi) (map Some vf) /\ nones sh = 1 /\
    p = build Flat (with_memory c sh ++ numbered Pi (map Some pi)) /\ v = build Flat (with_memory c sh ++ numbered Vf (map Some vf)).
Proof. exact lstm_iff. Qed.
Print Assumptions C131_lstm.

(** C131: twice, or not at all, raises ValueError; in a branch NotImplementedError. *)
Theorem C131_lstm_errors : (forall c layers sh rest, 2 <= nones sh -> lstm_policy Mlp false c layers (Some (front sh ++ rest)) = Raises ValueError) /\
  (forall c layers a sh pi vf, describes_lstm a sh (map Some pi) (map Some vf) -> nones sh = 0 -> lstm_policy Mlp false c layers (Some a) = Raises ValueError) /\
  (forall c layers sh d r l s, nones sh <= 1 -> dget "pi" d = Some (DList (items (map Some l) ++ ILstm :: r)) -> given "vf" d s ->
    forall after, lstm_policy Mlp false c layers (Some (front sh ++ ADict d :: after)) = Raises NotImplementedError).
Proof. exact (conj lstm_twice (conj lstm_missing lstm_branch)). Qed.
Print Assumptions C131_lstm_errors.

(** C131: an LstmPolicy without net_arch has one network for both: the layers, 64 and 64 by default, and the LSTM. *)
Theorem C131_lstm_layers : forall c layers p v, lstm_policy Mlp false c layers None = Returns (p, v) <->
  exists s, items (map Some s) = match layers with Some l => l | None => [IInt 64; IInt 64] end /\ p = build Flat (numbered Pi (map Some s) ++ [Memory c]) /\ v = p.
Proof. exact lstm_layers. Qed.
Print Assumptions C131_lstm_layers.

(** C131: with CNN features it has the LSTM on the features, and raises if net_arch is given. *)
Theorem C131_lstm_cnn : forall extra c layers net_arch, lstm_policy Cnn extra c layers net_arch = match net_arch with None => Returns (Lstm c Features, Lstm c Features) | Some _ => Raises NotImplementedError end.
Proof. exact lstm_cnn. Qed.
Print Assumptions C131_lstm_cnn.
