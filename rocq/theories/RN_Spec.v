(** Specification for training runs from an input file (C117). *)
From Coq Require Import Ascii String List Arith ZArith QArith Bool.
Import ListNotations.
Require Import Verif.IP_Model Verif.RN_Model.
Open Scope list_scope. Open Scope nat_scope.

(** Every step of the run: the times at which the environments have been stepped. *)
Fixpoint times (evs : list event) : list nat := match evs with [] => [] | Tick t :: r => t :: times r | Train :: r => times r end.
(** The readings the callback gets until the process ends: the mean reward of every check whose file can be read
    and has rows, with the model of that moment. *)
Fixpoint readings (c : cb) (w : world) (evs : list event) (k : nat) : list (Q * nat) :=
  let seen (y : option (list Q)) := match y with Some ((_ :: _) as l) => match tail_mean (avg_step c) l with Some q => [(q, k)] | None => [] end | _ => [] end in
  match evs with
  | [] => seen (csv_end w)
  | Train :: r => readings c w r (S k)
  | Tick t :: r => (if due c t then seen (csv_at w t) else []) ++ (if t =? total_timesteps c then [] else readings c w r k)
  end.
(** v comes with the greatest number, the first time that occurs. *)
Definition first_largest (l : list (Q * nat)) (v : nat) : Prop :=
  exists a m b, l = a ++ (m, v) :: b /\ (forall x, In x a -> fst x < m)%Q /\ (forall x, In x b -> fst x <= m)%Q.
(** The mean of the last n rows, or of all if there are fewer. *)
Definition mean_of (l : list Q) : Q := (fold_right Qplus 0 l / inject_Z (Z.of_nat (List.length l)))%Q.
Definition holds (f : file) (v : nat) (l : list (file * nat)) : Prop := In (f, v) l.
Definition absent (f : file) (l : list (file * nat)) : Prop := forall v, ~ In (f, v) l.
(** The training rounds of an algorithm before the process ends. *)
Definition rollout_rounds (n_batch total : nat) : nat := if total mod n_batch =? 0 then total / n_batch - 1 else total / n_batch.
(** The frequency is positive and the csv file can be read when the run ends. *)
Definition readable (c : cb) (w : world) : Prop := check_freq c <> 0 /\ csv_at w (total_timesteps c) <> None /\ csv_end w <> None.

(** A card as it is when the runner gets it: a value for exactly the names of the card. *)
Definition full_card {V} (a : algo) (card : list (text * V)) : Prop := forall k, In k (map fst card) <-> In k (map fst (table (card_name a))).
(** The names that are accepted in a card and whose values are never used. *)
Definition ignored (a : algo) : list text :=
  match a with
  | DQN => [t "exploration_final_eps"; t "exploration_initial_eps"; t "double_q"; t "prioritized_replay_alpha"; t "prioritized_replay_beta0"]
  | PPO => [t "cliprange_vf"]
  | A2C => [t "momentum"; t "epsilon"]
  | ACER => [t "alpha"; t "rprop_alpha"; t "rprop_epsilon"; t "correction_term"; t "trust_region"; t "delta"]
  end.
