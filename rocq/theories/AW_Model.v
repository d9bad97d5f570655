(** Model of neorl/rl/baselines/shared/atari_wrappers.py. *)
From Coq Require Import List Arith ZArith QArith Bool.
Import ListNotations.
Open Scope nat_scope.

(** A gym environment as a state machine; None: the call raises.  infos are not modelled. *)
Record env (S A O : Type) := mkEnv { ereset : S -> option (O * S); estep : S -> A -> option (O * Q * bool * S) }.
Arguments mkEnv {S A O}. Arguments ereset {S A O}. Arguments estep {S A O}.
Definition bind {X Y} (o : option X) (f : X -> option Y) : option Y := match o with Some x => f x | None => None end.

Section Wrappers.
  Context {S A O : Type}.
  Variable e : env S A O.

  (** NoopResetEnv.reset (27-39): the loop, then the whole call.  [noops]: the number drawn by randint(1, noop_max + 1),
      or the override. *)
  Variable noop : A.
  Fixpoint noop_loop (n : nat) (o : option O) (s : S) : option (option O * S) :=
    match n with
    | 0 => Some (o, s)
    | Datatypes.S n' =>
        bind (estep e s noop) (fun '(o', _, d, s') =>
          if d then bind (ereset e s') (fun '(o'', s'') => noop_loop n' (Some o'') s'') else noop_loop n' (Some o') s')
    end.
  Definition noop_reset (noops : S -> nat) (s : S) : option (O * S) :=
    bind (ereset e s) (fun '(_, s1) =>
      let n := noops s1 in
      if n =? 0 then None
      else bind (noop_loop n None s1) (fun '(o, s') => match o with Some o' => Some (o', s') | None => None end)).
  Definition noop_env (noops : S -> nat) : env S A O := mkEnv (noop_reset noops) (estep e).

  (** FireResetEnv.reset (55-63): the first observation is overwritten; the second is answered. *)
  Variable one two : A.
  Definition settle (d : bool) (s : S) : option S := if d then bind (ereset e s) (fun '(_, s') => Some s') else Some s.
  Definition fire_reset (s : S) : option (O * S) :=
    bind (ereset e s) (fun '(_, s1) =>
    bind (estep e s1 one) (fun '(_, _, d1, s2) => bind (settle d1 s2) (fun s3 =>
    bind (estep e s3 two) (fun '(o, _, d2, s4) => bind (settle d2 s4) (fun s5 => Some (o, s5)))))).
  Definition fire_env : env S A O := mkEnv fire_reset (estep e).

  (** EpisodicLifeEnv (69-112).  The state: the environment's, lives, was_real_done; [lives]: ale.lives(). *)
  Variable lives : S -> Z.
  Definition life_step (w : S * Z * bool) (a : A) : option (O * Q * bool * (S * Z * bool)) :=
    let '(s, l, _) := w in
    bind (estep e s a) (fun '(o, r, d, s') => Some (o, r, d || ((0 <? lives s')%Z && (lives s' <? l)%Z), (s', lives s', d))).
  Definition life_reset (w : S * Z * bool) : option (O * (S * Z * bool)) :=
    let '(s, _, real) := w in
    if real then bind (ereset e s) (fun '(o, s') => Some (o, (s', lives s', real)))
    else bind (estep e s noop) (fun '(o, _, _, s') => Some (o, (s', lives s', real))).
  Definition life_env : env (S * Z * bool) A O := mkEnv life_reset life_step.
  Definition life_init (s : S) : S * Z * bool := (s, 0%Z, true).

  (** MaxAndSkipEnv.step (128-152): the loop at index i with k calls left.  The state: the environment's and the two
      frames of the buffer. *)
  Variable omax : O -> O -> O.
  Fixpoint skip_loop (skip : nat) (a : A) (k i : nat) (s : S) (b : O * O) (total : Q) (d : option bool) : option (O * O * Q * option bool * S) :=
    match k with
    | 0 => Some (b, total, d, s)
    | Datatypes.S k' =>
        bind (estep e s a) (fun '(o, r, d', s') =>
          let b1 := if i + 2 =? skip then (o, snd b) else b in
          let b2 := if i + 1 =? skip then (fst b1, o) else b1 in
          if d' then Some (b2, (total + r)%Q, Some d', s') else skip_loop skip a k' (i + 1) s' b2 (total + r)%Q (Some d'))
    end.
  Definition skip_step (skip : nat) (w : S * (O * O)) (a : A) : option (O * Q * bool * (S * (O * O))) :=
    bind (skip_loop skip a skip 0 (fst w) (snd w) 0%Q None) (fun '(b, total, d, s') =>
      match d with Some d' => Some (omax (fst b) (snd b), total, d', (s', b)) | None => None end).
  Definition skip_reset (w : S * (O * O)) : option (O * (S * (O * O))) := bind (ereset e (fst w)) (fun '(o, s') => Some (o, (s', snd w))).
  Definition skip_env (skip : nat) : env (S * (O * O)) A O := mkEnv skip_reset (skip_step skip).

  (** ClipRewardEnv (158-173): np.sign. *)
  Definition sign (r : Q) : Q := match (r ?= 0)%Q with Gt => 1%Q | Eq => 0%Q | Lt => (-1)%Q end.
  Definition clip_env : env S A O := mkEnv (ereset e) (fun s a => bind (estep e s a) (fun '(o, r, d, s') => Some (o, sign r, d, s'))).

  (** FrameStack (204-243): the frames are a deque of at most n; too few of them raise. *)
  Definition push (n : nat) (q : list O) (o : O) : list O := let q' := q ++ [o] in skipn (length q' - n) q'.
  Definition stack_obs (n : nat) (q : list O) (s : S) : option (list O * (S * list O)) := if length q =? n then Some (q, (s, q)) else None.
  Definition stack_reset (n : nat) (w : S * list O) : option (list O * (S * list O)) :=
    bind (ereset e (fst w)) (fun '(o, s') => stack_obs n (fold_left (push n) (repeat o n) (snd w)) s').
  Definition stack_step (n : nat) (w : S * list O) (a : A) : option (list O * Q * bool * (S * list O)) :=
    bind (estep e (fst w) a) (fun '(o, r, d, s') => bind (stack_obs n (push n (snd w) o) s') (fun '(q, w') => Some (q, r, d, w'))).
  Definition stack_env (n : nat) : env (S * list O) A (list O) := mkEnv (stack_reset n) (stack_step n).
End Wrappers.

(** WarpFrame (176-201): the shape of frame[:, :, None], and the one declared; the conversion and the resizing are
    commented out. *)
Definition warp_shape (shape : list nat) : option (list nat) := match shape with h :: w :: more => Some (h :: w :: 1 :: more) | _ => None end.
Definition warp_declared : list nat := [84; 84; 1].

(** LazyFrames (257-284): the frames and the array; reading the array makes it once. *)
Section Lazy.
  Context {O B : Type}.
  Variable concat : list O -> B.
  Definition force (x : list O + B) : B * (list O + B) := match x with inl frames => let b := concat frames in (b, inr b) | inr b => (b, inr b) end.
End Lazy.
