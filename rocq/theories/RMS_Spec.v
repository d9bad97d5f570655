(** What running statistics should be. *)
From Coq Require Import List Arith ZArith QArith Bool.
From Verif Require Import Base RMS_Model.
Import ListNotations.
Open Scope nat_scope.

(** [m] and [v] are the mean and the (population) variance of the numbers [xs] together with
    [w] pseudo-observations of mean [m0] and variance [v0]. *)
Definition pooled (w m0 v0 : Q) (xs : list Q) (m v : Q) : Prop :=
  (((w + rq (length xs)) * m == w * m0 + rsum xs) /\
   ((w + rq (length xs)) * v == w * (v0 + (m0 - m) * (m0 - m)) + rsum (map (fun x => (x - m) * (x - m)) xs)))%Q.

(** Mean and population variance of [xs]. *)
Definition moments (xs : list Q) (m v : Q) : Prop :=
  (rq (length xs) * m == rsum xs /\ rq (length xs) * v == rsum (map (fun x => (x - m) * (x - m)) xs))%Q.

(** A batch of rows of [k] numbers, not empty. *)
Definition batch_ok (k : nat) (rows : list (list Q)) : Prop := rows <> [] /\ Forall (fun r => length r = k) rows.

(** The state [st] of an accumulator started with pseudo-count [w] holds, in each of [k]
    columns, the pooled moments of that column of [rows]. *)
Definition exact_stats (w : Q) (k : nat) (rows : list (list Q)) (st : rms) : Prop :=
  length (r_mean st) = k /\ length (r_var st) = k /\ (r_count st == w + rq (length rows))%Q /\
  forall j m v, nth_error (r_mean st) j = Some m -> nth_error (r_var st) j = Some v ->
    pooled w 0 1 (column j rows) m v.

(** Equal statistics. *)
Definition same_stats (a b : rms) : Prop :=
  (r_count a == r_count b)%Q /\ Forall2 Qeq (r_mean a) (r_mean b) /\ Forall2 Qeq (r_var a) (r_var b).

(** VecNormalize: the observations that are counted (those of the steps, not of the resets). *)
Definition step_obs (es : list vevent) : list (list Q) :=
  concat (map (fun e => match e with Stepped obs _ _ => obs | Resetted _ => [] end) es).
(** The returns that are counted, for [n] environments: after each step the discounted sum of
    the rewards of the running episode of every environment, and a zero for every environment at
    each reset. *)
Fixpoint returns_seen (g : Q) (ret : list Q) (es : list vevent) : list Q :=
  match es with
  | [] => []
  | Stepped _ rews news :: r =>
      let now := map (fun ar => fst ar * g + snd ar)%Q (combine ret rews) in
      now ++ returns_seen g (map (fun xd : Q * bool => if snd xd then 0%Q else fst xd) (combine now news)) r
  | Resetted _ :: r => map (fun _ => 0%Q) ret ++ returns_seen g (map (fun _ => 0%Q) ret) r
  end.
(** Answers of an environment with [n] copies and observations of [k] numbers. *)
Definition event_ok (n k : nat) (e : vevent) : Prop :=
  match e with
  | Stepped obs rews news => length obs = n /\ length rews = n /\ length news = n /\ Forall (fun r => length r = k) obs
  | Resetted obs => length obs = n /\ Forall (fun r => length r = k) obs
  end.
Definition within (c x : Q) : Prop := (- c <= x /\ x <= c)%Q.
(** [y] is [x] moved into [[-c, c]]. *)
Definition clamped (c x y : Q) : Prop := (within c x /\ y == x)%Q \/ (c < x /\ y == c)%Q \/ (x < - c /\ y == - c)%Q.
(** The observations answered by an event. *)
Definition event_obs (e : vevent) : list (list Q) := match e with Stepped obs _ _ => obs | Resetted obs => obs end.
