(** Vocabulary for the statements about Monitor, load_results and evaluate_policy. *)
From Coq Require Import List Arith ZArith QArith Bool.
From Verif Require Import Base MO_Model.
Import ListNotations.
Open Scope nat_scope.

(** Sum of rewards, from left to right. *)
Definition total (l : list Q) : Q := fold_left Qplus l 0%Q.

Section History.
Context {A O V : Type}.
Local Notation args := (key -> option V).
Local Notation res := (result O args V).

(** Read off what the calls of a session returned: the arguments of the reset that began it, the rewards and
    the last info of every episode that came to its end. *)
Fixpoint finished (kw : args) (cur : list Q) (h : list (call A V * res)) : list (args * list Q * args) :=
  match h with
  | [] => []
  | (CReset kw', RObs _) :: r => finished kw' [] r
  | (_, RStep _ q true i _) :: r => (kw, cur ++ [q], i) :: finished kw [] r
  | (_, RStep _ q false _ _) :: r => finished kw (cur ++ [q]) r
  | _ :: r => finished kw cur r
  end.
(** Is an episode going on after these results (was it before: [b])? *)
Fixpoint going (b : bool) (xs : list res) : bool :=
  match xs with
  | [] => b
  | RObs _ :: r => going true r
  | RStep _ _ d _ _ :: r => going (negb d) r
  | RError _ :: r => going b r
  end.
(** The rewards of the episode that is going on. *)
Fixpoint ongoing (cur : list Q) (xs : list res) : list Q :=
  match xs with
  | [] => cur
  | RObs _ :: r => ongoing [] r
  | RStep _ _ true _ _ :: r => ongoing [] r
  | RStep _ q false _ _ :: r => ongoing (cur ++ [q]) r
  | RError _ :: r => ongoing cur r
  end.
Definition is_step (x : res) : bool := match x with RStep _ _ _ _ _ => true | _ => false end.
Definition is_error (x : res) : bool := match x with RError _ => true | _ => false end.
(** A keyword of reset, or a key of the info, was missing. *)
Definition keyword_error (x : res) : bool := match x with RError (NoKeyword _) | RError (NoInfo _) => true | _ => false end.
Definition info_error (x : res) : bool := match x with RError (NoInfo _) => true | _ => false end.
Definition smooth (xs : list res) : Prop := Forall (fun x => keyword_error x = false) xs.
(** A result without info['episode']. *)
Definition forget (x : res) : res := match x with RStep o r d i _ => RStep o r d i None | _ => x end.
(** The calls that did not raise. *)
Definition accepted (h : list (call A V * res)) : list (call A V * res) := filter (fun cx => negb (is_error (snd cx))) h.
(** The row of the log file for a finished episode: columns for the keywords of reset, for the keys taken from
    the info, the rounded sum of the rewards, the number of steps; and no column that the header lacks. *)
Definition row_ok (rkw ikw : list key) (e : args * list Q * args) (row : dict (cell V)) : Prop :=
  let '(kw, rs, info) := e in
  (forall k, In k rkw -> exists v, kw k = Some v /\ dget row k = Some (Other v)) /\
  (forall k, In k ikw -> ~ In k rkw -> exists v, info k = Some v /\ dget row k = Some (Other v)) /\
  (~ In KR (rkw ++ ikw) -> dget row KR = Some (Num (round6 (total rs)))) /\
  (~ In KL (rkw ++ ikw) -> dget row KL = Some (Count (length rs))) /\
  (forall k, In k (map fst row) -> In k ([KR; KL; KT] ++ rkw ++ ikw)).
End History.

(** Times in order. *)
Fixpoint ascending (l : list Q) : Prop :=
  match l with a :: ((b :: _) as r) => (a <= b)%Q /\ ascending r | _ => True end.

(** Runs of a policy in any environment object: the rewards of one episode, then of [k] episodes. *)
Section Runs.
Context {M A O P : Type} (mreset : M -> M * option O) (mstep : A -> M -> M * option (O * Q * bool))
        (predict : nat -> O -> option P -> A * option P).
Inductive episode : M -> nat -> O -> option P -> list Q -> M -> nat -> Prop :=
| ep_end : forall m q o st a st' m' o' r, predict q o st = (a, st') -> mstep a m = (m', Some (o', r, true)) ->
    episode m q o st [r] m' (1 + q)
| ep_step : forall m q o st a st' m' o' r rs m2 q2, predict q o st = (a, st') -> mstep a m = (m', Some (o', r, false)) ->
    episode m' (1 + q) o' st' rs m2 q2 -> episode m q o st (r :: rs) m2 q2.
Inductive episodes : nat -> M -> nat -> list (list Q) -> M -> nat -> Prop :=
| eps_nil : forall m q, episodes 0 m q [] m q
| eps_cons : forall k m q m1 o rs m2 q2 l m3 q3, mreset m = (m1, Some o) -> episode m1 q o None rs m2 q2 -> episodes k m2 q2 l m3 q3 ->
    episodes (S k) m q (rs :: l) m3 q3.
End Runs.

(** What evaluate_policy reports of episodes: sum of the rewards and number of steps. *)
Definition report (l : list (list Q)) : list (Q * nat) := map (fun rs => (total rs, length rs)) l.
