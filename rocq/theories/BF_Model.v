(** Model of the toy environments: BitFlippingEnv (neorl/rl/baselines/shared/bit_flipping_env.py) and IdentityEnv
    (neorl/rl/baselines/shared/identity_env.py).

    Bits are booleans; numbers are exact rationals.  What the spaces sample is an argument.  [None]: IndexError. *)
From Coq Require Import List Arith ZArith QArith Bool.
Import ListNotations.
Open Scope nat_scope.

(** ** BitFlippingEnv *)
(** What __init__ is given (21-22): whether observations are numbers, and max_steps. *)
Record bcfg := Bcfg { b_number : bool; b_max : nat }.
(** max_steps (51-53). *)
Definition make (n_bits : nat) (max_steps : option nat) (number : bool) : bcfg := Bcfg number (match max_steps with None => n_bits | Some m => m end).
(** self.state and self.current_step. *)
Record bstate := Bstate { bits : list bool; count : nat }.
(** An observation: an array of bits or a number. *)
Inductive obs := Bits (l : list bool) | Num (z : Z).
(** convert_if_needed (58-69). *)
Fixpoint encode (l : list bool) : Z := match l with [] => 0 | b :: t => (if b then 1 else 0) + 2 * encode t end%Z.
Definition convert (c : bcfg) (l : list bool) : obs := if b_number c then Num (encode l) else Bits l.
(** desired_goal (50). *)
Definition goal (n : nat) : list bool := repeat true n.
(** _get_obs (71-81): observation, achieved_goal, desired_goal. *)
Definition get_obs (c : bcfg) (l : list bool) : obs * obs * obs := (convert c l, convert c l, convert c (goal (length l))).
(** reset (83-86); [sample] is what the space gives. *)
Definition b_reset (c : bcfg) (sample : list bool) : bstate * (obs * obs * obs) := (Bstate sample 0, get_obs c sample).
(** An action: a number, or an array of rationals in the continuous variant. *)
Inductive action := One (a : Z) | Cont (a : list Q).
Fixpoint flip_nth (i : nat) (l : list bool) : list bool :=
  match l, i with [], _ => [] | b :: t, O => negb b :: t | b :: t, S j => b :: flip_nth j t end.
Definition positive (q : Q) : bool := negb (Qle_bool q 0).
(** Lines 89-92: a negative number counts from the end; the mask must have the length of the state. *)
Definition act (l : list bool) (a : action) : option (list bool) :=
  let n := Z.of_nat (length l) in
  match a with
  | One z => if ((0 <=? z) && (z <? n))%Z then Some (flip_nth (Z.to_nat z) l)
             else if ((- n <=? z) && (z <? 0))%Z then Some (flip_nth (Z.to_nat (z + n)) l) else None
  | Cont m => if length m =? length l then Some (map (fun bq => if positive (snd bq) then negb (fst bq) else fst bq) (combine l m)) else None
  end.
(** compute_reward (102-109): 0 or -1. *)
Definition obs_eqb (a b : obs) : bool :=
  match a, b with
  | Bits l, Bits m => if list_eq_dec Bool.bool_dec l m then true else false
  | Num x, Num y => (x =? y)%Z
  | _, _ => false
  end.
Definition compute_reward (achieved desired : obs) : Z := (if obs_eqb achieved desired then 0 else -1)%Z.
(** step (88-100): observation, reward, done, is_success. *)
Definition b_step (c : bcfg) (s : bstate) (a : action) : option (bstate * (obs * obs * obs) * Z * bool * bool) :=
  match act (bits s) a with
  | None => None
  | Some l =>
      let o := get_obs c l in
      let r := compute_reward (snd (fst o)) (snd o) in
      let success := (r =? 0)%Z in
      let k := S (count s) in
      Some (Bstate l k, o, r, success || (b_max c <=? k), success)
  end.
(** An episode: actions are taken until the environment says that it is over.  The number of steps, the sum of
    rewards, whether it is over and whether the goal was reached. *)
Fixpoint play (c : bcfg) (s : bstate) (acts : list action) : option (nat * Z * bool * bool) :=
  match acts with
  | [] => Some (0, 0%Z, false, false)
  | a :: t =>
      match b_step c s a with
      | None => None
      | Some (s', _, r, d, ok) =>
          if d then Some (1, r, true, ok)
          else match play c s' t with None => None | Some (n, q, d', ok') => Some (S n, (r + q)%Z, d', ok') end
      end
  end.
(** observation_space.contains for Discrete(2 ** n_bits - 1) (28-32). *)
Definition in_discrete (n_bits : nat) (z : Z) : bool := ((0 <=? z) && (z <? 2 ^ Z.of_nat n_bits - 1))%Z.

(** ** IdentityEnv *)
Section Identity.
Context {X : Type}.
(** [matches]: np.all(state == action) (49-50), or the interval of IdentityEnvBox (77-78). *)
Variable matches : X -> X -> bool.
Record istate := Istate { i_state : X; i_step : nat; i_resets : Z }.
(** reset (32-36): [next] is action_space.sample(). *)
Definition i_reset (next : X) (s : istate) : istate * X := (Istate next 0 (i_resets s + 1), next).
(** __init__ (27-30). *)
Definition i_init (first : X) : istate := Istate first 0 (-1 + 1).
(** step (38-43). *)
Definition i_take (ep_length : nat) (next : X) (s : istate) (a : X) : istate * X * Z * bool :=
  let r := if matches (i_state s) a then 1%Z else 0%Z in
  let k := S (i_step s) in
  (Istate next k (i_resets s), next, r, ep_length <=? k).
(** An episode of a policy that sees the last observation; [draws]: what is sampled. *)
Fixpoint i_play (ep_length : nat) (pol : list X -> X) (seen : list X) (s : istate) (draws : list X) : list (Z * bool) :=
  match draws with
  | [] => []
  | x :: t => let '(s', o, r, d) := i_take ep_length x s (pol seen) in (r, d) :: (if d then [] else i_play ep_length pol (seen ++ [o]) s' t)
  end.
End Identity.
(** IdentityEnvBox._get_reward (77-78). *)
Definition box_matches (eps : Q) (state a : Q) : bool := Qle_bool (state - eps) a && Qle_bool a (state + eps).
