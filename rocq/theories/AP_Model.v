(** Model of predict and action_probability (neorl/rl/baselines/shared/base_class.py:702-750, 810-911,
    deepq/dqn.py:326-362, deepq/policies.py:119-149, shared/policies.py:232-252, 574-584).

    Floats are exact real numbers.  An array is its shape and its flat data; a Box of actions is flat.  A
    network is an arbitrary function of the rows of a batch.  An exception is [None]. *)
From Coq Require Import List Arith ZArith Reals Lra.
From Verif Require Import PD_Model.
Import ListNotations.
Open Scope R_scope.

(** ** Shapes of observations *)
Inductive ospace := OBox (shape : list nat) | ODiscrete | OMultiDiscrete (k : nat) | OMultiBinary (k : nat) | OOther.
(** observation_space.shape. *)
Definition oshape (s : ospace) : list nat := match s with OBox sh => sh | ODiscrete => [] | OMultiDiscrete k | OMultiBinary k => [k] | OOther => [] end.
Definition shape_eqb (a b : list nat) : bool := if list_eq_dec Nat.eq_dec a b then true else false.
(** _is_vectorized_observation (702-750). *)
Definition is_vectorized (shape : list nat) (s : ospace) : option bool :=
  match s with
  | OBox sh => if shape_eqb shape sh then Some false else if shape_eqb (tl shape) sh then Some true else None
  | ODiscrete => match shape with [] => Some false | [_] => Some true | _ => None end
  | OMultiDiscrete k | OMultiBinary k =>
      if shape_eqb shape [k] then Some false
      else match shape with [_; b] => if (b =? k)%nat then Some true else None | _ => None end
  | OOther => None
  end.
(** The size of an array of this shape. *)
Definition size (shape : list nat) : nat := fold_right Nat.mul 1%nat shape.
(** reshape((-1,) + shape) (818, 841): raises when the size is not a multiple; the number of rows cannot be
    inferred when a row is empty. *)
Fixpoint chunks {A} (fuel k : nat) (l : list A) : list (list A) :=
  match fuel with O => [] | S f => match l with [] => [] | _ => firstn k l :: chunks f k (skipn k l) end end.
Definition reshape {A} (k : nat) (l : list A) : option (list (list A)) :=
  if (k =? 0)%nat then None else if (length l mod k =? 0)%nat then Some (chunks (length l) k l) else None.

(** ** predict *)
Inductive aspace := ABox (low high : list R) | ADiscrete (n : nat) | AMulti (nvec : list nat) | ABinary (n : nat) | AOther.
(** np.clip on one row (824): minimum of maximum. *)
Definition clip_row (low high row : list R) : list R := map3 (fun x lo hi => Rmin (Rmax x lo) hi) row low high.
Definition clip_actions (s : aspace) (rows : list (list R)) : list (list R) :=
  match s with ABox low high => map (clip_row low high) rows | _ => rows end.
(** One action, or one for each row. *)
Inductive answer (A : Type) := One (a : A) | Many (l : list A).
Arguments One {A}. Arguments Many {A}.
(** actions[0] (829; dqn.py:335). *)
Definition first_row {A} (l : list A) : option (answer A) := match l with [] => None | a :: _ => Some (One a) end.

(** ActorCriticRLModel.predict (810-831); [step] gives an action for each row, [recurrent] tells whether the
    policy has a state. *)
Definition predict {O} (step : list (list O) -> list (list R)) (recurrent : bool) (s : ospace) (a : aspace) (shape : list nat) (data : list O) : option (answer (list R)) :=
  match is_vectorized shape s with
  | None => None
  | Some vec =>
      match reshape (size (oshape s)) data with
      | None => None
      | Some rows =>
          let actions := clip_actions a (step rows) in
          if vec then Some (Many actions) else if recurrent then None else first_row actions
      end
  end.
(** DQN.predict (dqn.py:326-337) with deterministic=True: np.argmax of the values of each row
    (deepq/policies.py:140). *)
Definition dqn_predict {O} (q : list O -> list R) (s : ospace) (shape : list nat) (data : list O) : option (answer nat) :=
  match is_vectorized shape s with
  | None => None
  | Some vec =>
      match reshape (size (oshape s)) data with
      | None => None
      | Some rows =>
          match all_some (map (fun r => argmax rlt (q r)) rows) with
          | None => None
          | Some actions => if vec then Some (Many actions) else first_row actions
          end
      end
  end.
Definition softmax (l : list R) : list R := map (fun a => exp a / zsum l) (shifted l).
(** np.random.choice(n, p=p) (deepq/policies.py:147) for a uniform number u of [0, 1): the number of cumulative
    sums that are at most u. *)
Fixpoint choice (p : list R) (u : R) : nat :=
  match p with [] => O | x :: t => if Rle_dec x u then S (choice t (u - x)) else O end.
(** DQNPolicy.step with deterministic=False on one row: policy_proba is the softmax of the values. *)
Definition dqn_draw (q : list R) (u : R) : nat := choice (softmax q) u.
(** Dueling networks (deepq/policies.py:128-130): q_out of one row. *)
Definition dueling (state_score : R) (scores : list R) : list R :=
  map (fun x => state_score + (x - rsum scores / INR (length scores))) scores.

(** FeedForwardPolicy.step (shared/policies.py:574-581) on discrete actions: the action, and the negative
    log-likelihood of the sampled action (240). *)
Definition step_discrete (logits u : list R) (deterministic : bool) : option (nat * R) :=
  match cat_mode logits, cat_sample logits u with
  | Some m, Some a => Some (if deterministic then m else a, cat_neglogp logits (Z.of_nat a))
  | _, _ => None
  end.

(** ** action_probability *)
(** What proba_step gives (shared/policies.py:241-251): an array with a row for each observation, or a list of
    such arrays. *)
Inductive proba := PRows (rows : list (list R)) | PParts (parts : list (list (list R))).
(** The j-th part of every row. *)
Definition column {A} (d : A) (rows : list (list A)) (j : nat) : list A := map (fun r => nth j r d) rows.
(** [flats]: the parameters of the distribution, a list for each observation. *)
Definition proba_step (s : aspace) (flats : list (list R)) : option proba :=
  match s with
  | ADiscrete _ => Some (PRows (map softmax flats))
  | ABox _ _ => match all_some (map halves flats) with
                | None => None
                | Some l => Some (PParts [map fst l; map (fun p => map exp (snd p)) l])
                end
  | ABinary _ => Some (PRows (map (map sigmoid) flats))
  | AMulti nvec => match all_some (map (split_at nvec) flats) with
                   | None => None
                   | Some l => Some (PParts (map (fun j => map softmax (column [] l j)) (seq 0 (length nvec))))
                   end
  | AOther => Some (PParts [])
  end.
(** proba[np.arange(n), actions] on one row (857, 865; dqn.py:351): a negative number counts from the end, one
    outside raises. *)
Definition pick (p : list R) (a : Z) : option R :=
  let n := Z.of_nat (length p) in
  if ((0 <=? a) && (a <? n))%Z%bool then Some (nth (Z.to_nat a) p 0)
  else if ((- n <=? a) && (a <? 0))%Z%bool then Some (nth (Z.to_nat (a + n)) p 0) else None.
Definition rprod (l : list R) : R := fold_right Rmult 1 l.
(** Box (878-884), one row: [m] the mean, [sd] what proba_step calls std and this code calls logstd. *)
Definition box_logprob (m sd a : list R) : R :=
  let log_normalizer := INR (length m) / 2 * ln (2 * PI) + 5 / 10 * rsum sd in
  - rsum (map3 (fun x mu s => sq (x - mu) / (2 * exp s)) a m sd) - log_normalizer.
(** An action: whole numbers, or real numbers in a Box. *)
Inductive action := Whole (a : list Z) | Real (x : list R).
(** The probability (857, 865, 873), or for a Box its logarithm (884), of one action for one row.  An action of
    the wrong size is refused by reshape or by the assertion on the batch sizes. *)
Definition row_prob (s : aspace) (flat : list R) (act : action) : option R :=
  match s, act with
  | ADiscrete _, Whole [a] => pick (softmax flat) a
  | AMulti nvec, Whole a =>
      if ((length nvec =? 0) || negb (length a =? length nvec))%nat%bool then None
      else bind (split_at nvec flat) (fun ls => bind (all_some (map (fun la => pick (softmax (fst la)) (snd la)) (combine ls a))) (fun ps => Some (rprod ps)))
  | ABinary n, Whole a =>
      if (length a =? n)%nat then Some (rprod (map (fun pa => fst pa * IZR (snd pa) + (1 - fst pa) * (1 - IZR (snd pa))) (combine (map sigmoid flat) a))) else None
  | ABox _ _, Real x => bind (halves flat) (fun p => if (length x =? length (fst p))%nat then Some (box_logprob (fst p) (map exp (snd p)) x) else None)
  | _, _ => None
  end.
(** In the space asked for (892-899). *)
Definition to_space (s : aspace) (logp : bool) (v : R) : R :=
  match s with ABox _ _ => if logp then v else exp v | _ => if logp then ln v else v end.
(** The observations beside the actions: the batch sizes are asserted equal (855, 861, 870), except for a Box,
    where numpy repeats a batch of one (884). *)
Definition paired {A B} (s : aspace) (l : list A) (m : list B) : option (list (A * B)) :=
  if (length l =? length m)%nat then Some (combine l m)
  else match s, l, m with
       | ABox _ _, [a], _ => Some (map (fun b => (a, b)) m)
       | ABox _ _, _, [b] => Some (map (fun a => (a, b)) l)
       | _, _, _ => None
       end.
(** action_probability with actions (833-911); [vec]: whether the observation is a batch.  ret.reshape((-1, 1))
    has one number in each row, here that number.  Where the code warns and returns None the result is [None]
    as well. *)
Definition action_probability (s : aspace) (recurrent vec : bool) (flats : list (list R)) (acts : list action) (logp : bool) : option (answer R) :=
  bind (paired s flats acts) (fun pairs =>
  bind (all_some (map (fun fa => bind (row_prob s (fst fa) (snd fa)) (fun v => Some (to_space s logp v))) pairs)) (fun ret =>
  if vec then Some (Many ret) else if recurrent then None else first_row ret)).
(** action_probability without actions for a single observation (903-909): ret[0]. *)
Inductive part := Row (r : list R) | Rows (l : list (list R)).
Definition single_proba (s : aspace) (flat : list R) : option part :=
  match proba_step s [flat] with
  | Some (PRows (r :: _)) => Some (Row r)
  | Some (PParts (p :: _)) => Some (Rows p)
  | _ => None
  end.
