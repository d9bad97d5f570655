(** neorl/rl/baselines/shared/running_mean_std.py and
    neorl/rl/baselines/shared/vec_env/vec_normalize.py.

    Numbers are exact rationals.  An array of shape [k] is a list of length [k]; a batch is a list
    of such rows (an array of shape [(n, k)]).  A scalar stream (shape ()) is the case of one
    column. *)
From Coq Require Import List Arith ZArith QArith Bool.
From Verif Require Import Base Opt_Model.
Import ListNotations.
Open Scope nat_scope.

Definition rq (n : nat) : Q := inject_Z (Z.of_nat n).
Definition rsum (l : list Q) : Q := fold_right Qplus 0%Q l.

(** np.mean and np.var (population variance) of a column. *)
Definition np_mean (xs : list Q) : Q := (rsum xs / rq (length xs))%Q.
Definition np_var (xs : list Q) : Q := np_mean (map (fun x => (x - np_mean xs) * (x - np_mean xs))%Q xs).

(** running_mean_std.py:12-14. *)
Record rms : Type := RMS { r_mean : list Q; r_var : list Q; r_count : Q }.
Definition rms_new (epsilon : Q) (k : nat) : rms := RMS (repeat 0%Q k) (repeat 1%Q k) epsilon.

(** update_from_moments, running_mean_std.py:22-37, for one column: new mean and variance. *)
Definition from_moments (mean var count bmean bvar bcount : Q) : Q * Q :=
  let delta := (bmean - mean)%Q in
  let tot := (count + bcount)%Q in
  let new_mean := (mean + delta * bcount / tot)%Q in
  let m_a := (var * count)%Q in
  let m_b := (bvar * bcount)%Q in
  let m_2 := (m_a + m_b + delta * delta * count * bcount / (count + bcount))%Q in
  (new_mean, (m_2 / (count + bcount))%Q).

(** Column [j] of a batch. *)
Definition column (j : nat) (rows : list (list Q)) : list Q := map (fun r => nth j r 0%Q) rows.

(** update, running_mean_std.py:16-20.  An empty batch (NaN statistics) and rows of a different
    shape (broadcast error) give None. *)
Definition rms_update (st : rms) (rows : list (list Q)) : option rms :=
  let k := length (r_mean st) in
  if (length rows =? 0) || negb (forallb (fun r => length r =? k) rows) then None
  else
    let c := rq (length rows) in
    let new j := from_moments (nth j (r_mean st) 0%Q) (nth j (r_var st) 0%Q) (r_count st)
                   (np_mean (column j rows)) (np_var (column j rows)) c in
    Some (RMS (map (fun j => fst (new j)) (seq 0 k)) (map (fun j => snd (new j)) (seq 0 k)) (c + r_count st)%Q).

(** A sequence of calls of [update]. *)
Fixpoint rms_run (st : rms) (batches : list (list (list Q))) : option rms :=
  match batches with
  | [] => Some st
  | b :: r => let* st' := rms_update st b in rms_run st' r
  end.

(** mpi_running_mean_std.py:8-59, without the float32 casts and the lower bound 1e-2 of the
    reported standard deviation: sums, sums of squares and a count.  [update] is called by every
    worker with rows of its own and adds the totals over the workers (Allreduce); a round is the
    list of the workers' batches. *)
Record mpi : Type := MPI { mp_sum : list Q; mp_sumsq : list Q; mp_count : Q }.
Definition mpi_new (epsilon : Q) (k : nat) : mpi := MPI (repeat 0%Q k) (repeat epsilon k) epsilon.
Definition mpi_update (st : mpi) (workers : list (list (list Q))) : mpi :=
  let total (f : list (list Q) -> Q) := rsum (map f workers) in
  let k := length (mp_sum st) in
  MPI (map (fun j => nth j (mp_sum st) 0 + total (fun b => rsum (column j b)))%Q (seq 0 k))
      (map (fun j => nth j (mp_sumsq st) 0 + total (fun b => rsum (map (fun x => x * x) (column j b))))%Q (seq 0 k))
      (mp_count st + total (fun b => rq (length b)))%Q.
Definition mpi_mean (st : mpi) (j : nat) : Q := (nth j (mp_sum st) 0 / mp_count st)%Q.
Definition mpi_var (st : mpi) (j : nat) : Q := (nth j (mp_sumsq st) 0 / mp_count st - mpi_mean st j * mpi_mean st j)%Q.
Definition mpi_run (st : mpi) (rounds : list (list (list (list Q)))) : mpi := fold_left mpi_update rounds st.

(** * VecNormalize *)
(** vec_normalize.py:28-44, without the wrapped environment: obs_rms, ret_rms, ret, old_obs,
    old_rews; [sqrtf] is np.sqrt. *)
Record vnorm : Type := VNorm { v_obs : rms; v_rrms : rms; v_ret : list Q; v_old : list (list Q); v_oldr : list Q }.
Record vpar : Type := VPar { vp_train : bool; vp_nobs : bool; vp_nrew : bool; vp_cobs : Q; vp_crew : Q; vp_gamma : Q; vp_eps : Q }.
Definition rms_eps : Q := (1 # 10000)%Q.
Definition vnorm_new (n k : nat) : vnorm := VNorm (rms_new rms_eps k) (rms_new rms_eps 1) (repeat 0%Q n) [] [].

(** np.clip(x, lo, hi) = minimum(maximum(x, lo), hi). *)
Definition np_clip (x lo hi : Q) : Q := qmin2 (qmax2 x lo) hi.

Section VN.
Context (sqrtf : Q -> Q) (p : vpar).
(** normalize_obs, vec_normalize.py:109-118, and normalize_reward, 120-128. *)
Definition normalize_obs (st : rms) (obs : list (list Q)) : list (list Q) :=
  if vp_nobs p then
    map (fun row => map2 (fun x mv => np_clip ((x - fst mv) / sqrtf (snd mv + vp_eps p)) (- vp_cobs p) (vp_cobs p))%Q
                      row (combine (r_mean st) (r_var st))) obs
  else obs.
Definition normalize_reward (st : rms) (rews : list Q) : list Q :=
  if vp_nrew p then
    map (fun r => np_clip (r / sqrtf (nth 0 (r_var st) 0 + vp_eps p)) (- vp_crew p) (vp_crew p))%Q rews
  else rews.
(** _update_reward, vec_normalize.py:104-107. *)
Definition update_reward (rr : rms) (ret rews : list Q) : option (rms * list Q) :=
  let ret' := map2 (fun a r => a * vp_gamma p + r)%Q ret rews in
  let* rr' := rms_update rr (map (fun x => [x]) ret') in Some (rr', ret').

(** What the wrapped environment answers: step_wait (observations, rewards, dones) or reset. *)
Inductive vevent : Type := Stepped (obs : list (list Q)) (rews : list Q) (news : list bool) | Resetted (obs : list (list Q)).
(** step_wait, vec_normalize.py:84-102, and reset, 143-152: the state and what is returned. *)
Definition vn_step (st : vnorm) (e : vevent) : option (vnorm * (list (list Q) * list Q)) :=
  match e with
  | Stepped obs rews news =>
      let* orms := if vp_train p then rms_update (v_obs st) obs else Some (v_obs st) in
      let out := normalize_obs orms obs in
      let* '(rr, ret) := if vp_train p then update_reward (v_rrms st) (v_ret st) rews else Some (v_rrms st, v_ret st) in
      let outr := normalize_reward rr rews in
      let ret := map2 (fun (x : Q) (d : bool) => if d then 0%Q else x) ret news in
      Some (VNorm orms rr ret obs rews, (out, outr))
  | Resetted obs =>
      let zero := map (fun _ => 0%Q) (v_ret st) in
      let* '(rr, ret) := if vp_train p then update_reward (v_rrms st) zero zero else Some (v_rrms st, zero) in
      Some (VNorm (v_obs st) rr ret obs (v_oldr st), (normalize_obs (v_obs st) obs, []))
  end.
Fixpoint vn_run (st : vnorm) (es : list vevent) : option (vnorm * list (list (list Q) * list Q)) :=
  match es with
  | [] => Some (st, [])
  | e :: r => let* '(st1, o) := vn_step st e in let* '(st2, os) := vn_run st1 r in Some (st2, o :: os)
  end.
End VN.
