(** Recurrent policies. /repo/neorl/rl/baselines/shared/tf_layers.py (lstm, _ln), tf_util.py (batch_to_seq, seq_to_batch) and
    policies.py (LstmPolicy). Numbers are exact. *)
From Coq Require Import Reals List Arith Bool.
Import ListNotations.
Open Scope R_scope.

(** A row of a tensor: one environment. *)
Notation row := (list R).
Definition zeros (w : nat) : row := repeat 0 w.
Definition zip (f : R -> R -> R) (a b : row) : row := map (fun p => f (fst p) (snd p)) (combine a b).
(** tf.matmul of one row with a matrix of w columns. *)
Definition matmul (w : nat) (x : row) (m : list row) : row :=
  fold_left (fun acc p => zip Rplus acc (map (Rmult (fst p)) (snd p))) (combine x m) (zeros w).
(** tf.sigmoid; tanh is that of the standard library. *)
Definition sigmoid (x : R) : R := / (1 + exp (- x)).
(** tf.nn.moments along the row: tf_layers.py:187. *)
Definition total (v : row) : R := fold_left Rplus v 0.
Definition average (v : row) : R := total v / INR (length v).
Definition variance (v : row) : R := average (map (fun x => (x - average v) * (x - average v)) v).
(** _ln: tf_layers.py:174-190. *)
Definition ln_row (gain bias v : row) : row :=
  zip Rplus (zip Rmult (map (fun x => (x - average v) / sqrt (variance v + / 10 ^ 5)) v) gain) bias.

(** The variables of the cell: tf_layers.py:128-142. *)
Record norm : Type := Norm { gain_x : row; bias_x : row; gain_h : row; bias_h : row; gain_c : row; bias_c : row }.
Record params : Type := Params { n_hidden : nat; weight_x : list row; weight_h : list row; bias : row; layer_norm : option norm }.
(** Cell state and hidden state of one environment. *)
Notation memory := (row * row)%type.

(** One step of one environment: tf_layers.py:146-163. *)
Definition gates (p : params) (x h : row) : row :=
  let w := (4 * n_hidden p)%nat in
  match layer_norm p with
  | Some g => zip Rplus (zip Rplus (ln_row (gain_x g) (bias_x g) (matmul w x (weight_x p)))
                                   (ln_row (gain_h g) (bias_h g) (matmul w h (weight_h p)))) (bias p)
  | None => zip Rplus (zip Rplus (matmul w x (weight_x p)) (matmul w h (weight_h p))) (bias p)
  end.
(** tf.split into pieces of n. *)
Definition slice (n k : nat) (v : row) : row := firstn n (skipn (k * n) v).
Definition cell (p : params) (x : row) (mask : R) (s : memory) : memory :=
  let c := map (fun y => y * (1 - mask)) (fst s) in
  let h := map (fun y => y * (1 - mask)) (snd s) in
  let a := gates p x h in
  let n := n_hidden p in
  let in_gate := map sigmoid (slice n 0 a) in
  let forget_gate := map sigmoid (slice n 1 a) in
  let out_gate := map sigmoid (slice n 2 a) in
  let candidate := map tanh (slice n 3 a) in
  let c' := zip Rplus (zip Rmult forget_gate c) (zip Rmult in_gate candidate) in
  let h' := zip Rmult out_gate (map tanh (match layer_norm p with Some g => ln_row (gain_c g) (bias_c g) c' | None => c' end)) in
  (c', h').
(** One step of all environments: the operations work row by row. *)
Definition step_all (p : params) (xs : list row) (masks : list R) (ss : list memory) : list memory :=
  map (fun q => cell p (fst (fst q)) (snd (fst q)) (snd q)) (combine (combine xs masks) ss).
(** The loop: tf_layers.py:145-164. The outputs replace the inputs. *)
Fixpoint loop (p : params) (inputs : list (list row)) (masks : list (list R)) (ss : list memory) : list (list row) * list memory :=
  match inputs, masks with
  | xs :: inputs', ms :: masks' =>
      let ss' := step_all p xs ms ss in
      let r := loop p inputs' masks' ss' in
      (map snd ss' :: fst r, snd r)
  | rest, _ => (rest, ss)
  end.
(** lstm: tf_layers.py:112-166. *)
Definition lstm (p : params) (inputs : list (list row)) (masks : list (list R)) (states : list row) : list (list row) * list row :=
  let r := loop p inputs masks (map (fun s => (slice (n_hidden p) 0 s, slice (n_hidden p) 1 s)) states) in
  (fst r, map (fun s => fst s ++ snd s) (snd r)).

(** batch_to_seq: tf_util.py:24-39. The batch has n_env consecutive runs of n_steps elements. *)
Definition batch_to_seq {A} (d : A) (batch : list A) (n_env n_steps : nat) : list (list A) :=
  map (fun t => map (fun e => nth (e * n_steps + t) batch d) (seq 0 n_env)) (seq 0 n_steps).
(** seq_to_batch: tf_util.py:42-55. *)
Definition seq_to_batch {A} (d : A) (n_env : nat) (sq : list (list A)) : list A :=
  concat (map (fun e => map (fun r => nth e r d) sq) (seq 0 n_env)).

(** The hidden rows that an LstmPolicy computes, and the new state: policies.py:419-431, 457-466 and the feeds of 506-518. The features of
    an observation are any function of it. None: a feed that does not have the shape of its placeholder raises. *)
Definition forward {O} (features : O -> row) (p : params) (n_env n_steps : nat) (obs : list O) (dones : list bool) (states : list row)
  : option (list row * list row) :=
  if (Nat.eqb (length obs) (n_env * n_steps) && Nat.eqb (length dones) (n_env * n_steps) && Nat.eqb (length states) n_env
      && forallb (fun s => Nat.eqb (length s) (n_hidden p + n_hidden p)) states)%bool
  then
    let inputs := batch_to_seq [] (map features obs) n_env n_steps in
    let masks := batch_to_seq 0 (map (fun b : bool => if b then 1 else 0) dones) n_env n_steps in
    let r := lstm p inputs masks states in
    Some (seq_to_batch [] n_env (fst r), snd r)
  else None.
(** initial_state: policies.py:355. *)
Definition initial_state (p : params) (n_env : nat) : list row := repeat (zeros (n_hidden p + n_hidden p)) n_env.
(** Acting: one call with one step per element, each with the state that the call before it returned. The hidden rows of all calls. *)
Fixpoint acting {O} (features : O -> row) (p : params) (n_env : nat) (obs : list (list O)) (dones : list (list bool)) (states : list row)
  : option (list (list row) * list row) :=
  match obs, dones with
  | [], [] => Some ([], states)
  | o :: obs', d :: dones' =>
      match forward features p n_env 1 o d states with
      | None => None
      | Some (hs, states') =>
          match acting features p n_env obs' dones' states' with None => None | Some (hss, final) => Some (hs :: hss, final) end
      end
  | _, _ => None
  end.
