(** neorl/evolu/xnes.py.  The search distribution (mu, sigma, bmat and their updates, xnes.py:239-256,
    adasam 285-311) is not modelled: the candidates before the bound repair, [mu + sigma*s.bmat]
    with arbitrary normal deviates [s], are arbitrary vectors with one number per variable. *)
From Coq Require Import List Arith ZArith QArith Bool.
From Verif Require Import Base Space_Model Opt_Model Pop_Model Swarm_Model ACO_Model.
Import ListNotations.
Open Scope nat_scope.

(** The attributes of the object that outlive a call: best fitness and position (None: -inf),
    history['fitness'], the counter of generations without progress, and whether [mu_best] was
    ever set; ghost log of evaluated points. *)
Record xn_state : Type := XnSt {
  xn_best : option (list Q * Q); xn_hist : list Q; xn_counter : nat; xn_mu_set : bool;
  xn_last : list (list Q * Q); xn_log : list (list Q) }.

(** XNES.__init__, xnes.py:104-111. *)
Definition xn_new : xn_state := XnSt None [] 0 false [] [].

Section X.
Context (m : mode) (fit : list Q -> Q) (ds : list dimn).

(** xnes.py:212-215. *)
Definition xn_track1 (b : option (list Q * Q)) (xf : list Q * Q) : option (list Q * Q) :=
  match b with
  | None => Some xf
  | Some (x, f) => if Qltb f (snd xf) then Some xf else Some (x, f)
  end.

(** One generation, xnes.py:191-252: [raw] are the candidates before ensure_bounds. *)
Definition xn_gen (raw : list (list Q)) (st : xn_state) : option xn_state :=
  let z := map (clip_vec (bnds ds)) raw in
  let f := map (fun x => as_max m (fit x)) z in
  let fitness := (qsum f / qnat (length f))%Q in
  let pop := sort_asc snd (combine z f) in
  let best := fold_left xn_track1 pop (xn_best st) in
  let* '(_, fb) := best in
  let up := Qltb fb (fitness - (1 # 100000000)) in
  Some (XnSt best (xn_hist st ++ [fb]) (if up then 0 else S (xn_counter st)) (up || xn_mu_set st) pop (xn_log st ++ z)).

Record xn_result : Type := XnRes { xr_x : list Q; xr_y : Q; xr_hist : list Q; xr_pop : list (list Q); xr_pf : list Q }.

(** XNES.evolute, xnes.py:156-283 (for ngen >= 1): in 'min' mode the whole history list, with
    what earlier calls left in it, is negated at the end. *)
Definition xn_evolute (st : xn_state) (raws : list (list (list Q))) : option (xn_state * xn_result) :=
  if length raws =? 0 then None else
  let* st' := fold_left (fun s raw => let* s' := s in xn_gen raw s') raws (Some st) in
  let* '(x, f) := xn_best st' in
  let hist := match m with Mmin => map Qopp (xn_hist st') | Mmax => xn_hist st' end in
  Some (XnSt (xn_best st') hist (xn_counter st') (xn_mu_set st') (xn_last st') (xn_log st'),
        XnRes x (as_max m f) hist (map fst (xn_last st')) (map (fun xf => as_max m (snd xf)) (xn_last st'))).

(** A series of calls on one object. *)
Fixpoint xn_calls (st : xn_state) (calls : list (list (list (list Q)))) : option xn_state :=
  match calls with
  | [] => Some st
  | c :: r => let* '(st', _) := xn_evolute st c in xn_calls st' r
  end.
End X.

(** The utilities of the fitness shaping, xnes.py:86-93; [logf] is log. *)
Definition xn_raw_utility (logf : Q -> Q) (npop k : nat) : Q :=
  qmax2 0 (logf (1 + (1 # 2) * qnat npop) - logf (qnat k))%Q.
Definition xn_utilities (logf : Q -> Q) (npop : nat) : list Q :=
  let raw := map (xn_raw_utility logf npop) (seq 1 npop) in
  rev (map (fun u => u / qsum raw - 1 / qnat npop)%Q raw).
