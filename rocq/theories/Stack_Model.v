(** neorl/rl/baselines/shared/vec_env/vec_frame_stack.py.

    The observation of one environment is an array whose last axis has [w] entries: a list of rows of
    length [w] (the leading axes flattened into the row index).  Arrays live in a heap, because
    reset writes into the array that the previous call handed out.  dtype conversions are left out. *)
From Coq Require Import List Arith Bool.
From Verif Require Import Base Opt_Model.
Import ListNotations.
Open Scope nat_scope.

Section Stack.
Context {A : Type} (zero : A).
Notation frame := (list (list A)).

(** np.roll(row, -w). *)
Definition roll (w : nat) (row : list A) : list A := let k := w mod length row in skipn k row ++ firstn k row.
(** row[:-w] followed by new entries (also: row[-w:] = new). *)
Definition put_last (w : nat) (row new : list A) : list A := firstn (length row - w) row ++ new.
Definition zeros (row : list A) : list A := map (fun _ => zero) row.

Record fstack : Type := FStack { fs_heap : list (list frame); fs_cur : nat }.
(** __init__, vec_frame_stack.py:17-25: [envs] environments, [m] rows, zeros of width [n_stack * w]. *)
Definition stack_new (envs m w n_stack : nat) : fstack := FStack [repeat (repeat (repeat zero (w * n_stack)) m) envs] 0.

(** One environment in step_wait, vec_frame_stack.py:31-43: the new stacked observation and the new
    terminal observation. *)
Definition stack_env (w : nat) (st obs : frame) (done : bool) (terminal : option frame) : frame * option frame :=
  let rolled := map (roll w) st in
  let terminal := if done then match terminal with Some t => Some (map2 (put_last w) rolled t) | None => None end else terminal in
  let kept := if done then map zeros rolled else rolled in
  (map2 (put_last w) kept obs, terminal).
Fixpoint stack_envs (w : nat) (st obs : list frame) (dones : list bool) (terms : list (option frame)) : list (frame * option frame) :=
  match st, obs, dones, terms with
  | s :: st, o :: obs, d :: dones, t :: terms => stack_env w s o d t :: stack_envs w st obs dones terms
  | _, _, _, _ => []
  end.

(** A call, with what the wrapped environments deliver. *)
Inductive sev : Type := SReset (obs : list frame) | SStep (obs : list frame) (dones : list bool) (terms : list (option frame)).
Definition sev_obs (e : sev) : list frame := match e with SReset obs => obs | SStep obs _ _ => obs end.
(** step_wait, vec_frame_stack.py:27-44, and reset, vec_frame_stack.py:46-53.  np.roll makes a new
    array; reset works in the current one.  The result is the array handed out and the infos. *)
Definition stack_call (w : nat) (s : fstack) (e : sev) : fstack * (nat * list (option frame)) :=
  let arr := nth (fs_cur s) (fs_heap s) [] in
  match e with
  | SStep obs dones terms =>
      let r := stack_envs w arr obs dones terms in
      let s' := FStack (fs_heap s ++ [map fst r]) (length (fs_heap s)) in (s', (fs_cur s', map snd r))
  | SReset obs =>
      let arr' := map2 (map2 (put_last w)) (map (map zeros) arr) obs in
      (FStack (set_nth (fs_heap s) (fs_cur s) arr') (fs_cur s), (fs_cur s, []))
  end.
Fixpoint stack_calls (w : nat) (s : fstack) (es : list sev) : fstack * list (nat * list (option frame)) :=
  match es with
  | [] => (s, [])
  | e :: r => let '(s1, o) := stack_call w s e in let '(s2, os) := stack_calls w s1 r in (s2, o :: os)
  end.

(** np.repeat(bound, n_stack, axis=-1), vec_frame_stack.py:21-22. *)
Definition repeat_axis {B} (n_stack : nat) (row : list B) : list B := flat_map (fun x => repeat x n_stack) row.
End Stack.
