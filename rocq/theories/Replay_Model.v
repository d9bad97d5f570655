(** Model of neorl/rl/baselines/shared/buffers.py. *)
From Coq Require Import List Arith ZArith QArith Qminmax Bool.
From Verif Require Import Base SegTree_Model.
Import ListNotations.
Open Scope nat_scope.

Section Replay.
  Context {Obs Act : Type}.

  (** buffers.py 63: data = (obs_t, action, reward, obs_tp1, done) *)
  Definition transition : Type := (Obs * Act * Q * Obs * bool)%type.

  (** buffers.py 11-20 *)
  Record buffer : Type := mkBuf { storage : list transition; maxsize : nat; next_idx : nat }.
  Definition new_buffer (size : nat) : buffer := mkBuf [] size 0.

  (** buffers.py 35-43 *)
  Definition can_sample (b : buffer) (n : nat) : bool := n <=? length (storage b).
  (** buffers.py 45-51 *)
  Definition is_full (b : buffer) : bool := length (storage b) =? maxsize b.

  (** buffers.py 65-69 (also 85-89): write at [_next_idx] and advance.  With
      [maxsize = 0] the modulo raises ZeroDivisionError. *)
  Definition put (b : buffer) (d : transition) : option buffer :=
    let st := if length (storage b) <=? next_idx b then storage b ++ [d]
              else set_nth (storage b) (next_idx b) d in
    if maxsize b =? 0 then None
    else Some (mkBuf st (maxsize b) ((next_idx b + 1) mod maxsize b)).

  (** buffers.py 53-69 [add] *)
  Definition add (b : buffer) (o : Obs) (a : Act) (r : Q) (o' : Obs) (d : bool) : option buffer :=
    put b (o, a, r, o', d).

  (** Python's [zip] of the five columns. *)
  Fixpoint zip5 (os : list Obs) (acts : list Act) (rs : list Q) (os' : list Obs)
           (ds : list bool) : list transition :=
    match os, acts, rs, os', ds with
    | o :: os, a :: acts, r :: rs, o' :: os', d :: ds => (o, a, r, o', d) :: zip5 os acts rs os' ds
    | _, _, _, _, _ => []
    end.

  (** buffers.py 71-89 [extend] *)
  Definition extend (b : buffer) os acts rs os' ds : option buffer :=
    ofold put b (zip5 os acts rs os' ds).

  (** buffers.py 111-125 [_encode_sample] without an environment to normalise
      with: five aligned columns. [None]: an index is out of the list. *)
  Fixpoint gather (st : list transition) (idxes : list nat) : option (list transition) :=
    match idxes with
    | [] => Some []
    | i :: r => match nth_error st i, gather st r with
                | Some d, Some ds => Some (d :: ds)
                | _, _ => None
                end
    end.
  Definition encode_sample (b : buffer) (idxes : list nat)
    : option (list Obs * list Act * list Q * list Obs * list bool) :=
    match gather (storage b) idxes with
    | None => None
    | Some ds => Some (map (fun d => let '(o,a,r,o',f) := d in o) ds,
                       map (fun d => let '(o,a,r,o',f) := d in a) ds,
                       map (fun d => let '(o,a,r,o',f) := d in r) ds,
                       map (fun d => let '(o,a,r,o',f) := d in o') ds,
                       map (fun d => let '(o,a,r,o',f) := d in f) ds)
    end.

  (** buffers.py 127-143 [sample]; [draws] are the results of
      [random.randint(0, len-1)] (which raises on an empty buffer). *)
  Definition sample (b : buffer) (draws : list nat) :=
    if (length (storage b) =? 0) && negb (length draws =? 0) then None
    else encode_sample b draws.

  (** *** PrioritizedReplayBuffer, buffers.py 146-264 *)
  Section Prioritized.
    Variable pw : Q -> Q.       (* x ** self._alpha *)
    Variable fuel : nat.        (* recursion/loop budget *)

    Record per : Type := mkPer {
      base : buffer; it_sum : sum_tree; it_min : min_tree; max_priority : Q }.

    (** buffers.py 161-163 *)
    Fixpoint it_capacity (n : nat) (c size : nat) : option nat :=
      if c <? size then match n with O => None | S n' => it_capacity n' (c * 2) size end
      else Some c.

    (** buffers.py 147-167 ([alpha >= 0] is the caller's assertion). *)
    Definition new_per (size : nat) : option per :=
      match it_capacity size 1 size with
      | None => None
      | Some c =>
          match new_sum_tree c, new_min_tree c with
          | Some s, Some m => Some (mkPer (new_buffer size) s m 1%Q)
          | _, _ => None
          end
      end.

    (** [self._it_sum[idx] = v; self._it_min[idx] = v] *)
    Definition set_prio (p : per) (ivs : list (nat * Q)) : outcome per :=
      obind (setitems Qplus fuel (it_sum p) ivs) (fun s =>
      obind (setitems ext_min fuel (it_min p) (map (fun iv => (fst iv, Fin (snd iv))) ivs)) (fun m =>
      Done (mkPer (base p) s m (max_priority p)))).

    Definition with_base (p : per) (b : buffer) : per :=
      mkPer b (it_sum p) (it_min p) (max_priority p).

    (** buffers.py 169-182 [add] *)
    Definition per_add (p : per) (d : transition) : outcome per :=
      let idx := next_idx (base p) in
      match put (base p) d with
      | None => Raise
      | Some b => set_prio (with_base p b) [(idx, pw (max_priority p))]
      end.

    (** buffers.py 199-202, the loop of [extend] *)
    Fixpoint extend_loop (n : nat) (p : per) (idx : nat) : outcome per :=
      if idx =? next_idx (base p) then Done p
      else match n with
           | O => Fuel
           | S n' => obind (set_prio p [(idx, pw (max_priority p))])
                       (fun p' => extend_loop n' p' ((idx + 1) mod maxsize (base p)))
           end.

    (** buffers.py 184-202 [extend] (rows already zipped, see [zip5]) *)
    Definition per_extend (p : per) (rows : list transition) : outcome per :=
      let idx := next_idx (base p) in
      match ofold put (base p) rows with
      | None => Raise
      | Some b => extend_loop fuel (with_base p b) idx
      end.

    (** buffers.py 246-264 [update_priorities] *)
    Definition update_priorities (p : per) (idxes : list nat) (prios : list Q) : outcome per :=
      if (length idxes =? length prios) && negb (length idxes =? 0)
         && forallb (fun x => Qltb 0 x) prios
         && forallb (fun i => i <? length (storage (base p))) idxes
      then
        obind (set_prio p (combine idxes (map pw prios))) (fun p' =>
        Done (mkPer (base p') (it_sum p') (it_min p')
                    (fold_left (fun m x => if Qle_bool x m then m else x) prios (max_priority p'))))
      else Raise.

    (** buffers.py 204-210 [_sample_proportional]; [us] are the results of
        [np.random.random] in [0,1). *)
    Definition sample_proportional (p : per) (us : list Q) : outcome (list nat) :=
      obind (reduce Qplus fuel (it_sum p) 0 (Some (Z.of_nat (length (storage (base p))) - 1)%Z))
        (fun total => find_prefixsum_idx fuel (it_sum p) (map (fun u => (u * total)%Q) us)).

    (** buffers.py 235-242: importance weights for the sampled indices.
        [pneg x] is [x ** (-beta)].  The assertion [beta > 0] and the case of an
        empty buffer (inf / 0) are [Raise]. *)
    Definition weights (pneg : Q -> Q) (beta : Q) (p : per) (idxes : list nat) : outcome (list Q) :=
      if Qltb 0 beta then
        obind (reduce ext_min fuel (it_min p) 0 None) (fun mn =>
        obind (reduce Qplus fuel (it_sum p) 0 None) (fun total =>
        match mn with
        | PInf => Raise
        | Fin q =>
            let n := inject_Z (Z.of_nat (length (storage (base p)))) in
            let p_min := (q / total)%Q in
            let max_weight := pneg (p_min * n)%Q in
            obind (omap (getitem (it_sum p)) idxes) (fun ps =>
            Done (map (fun s => (pneg ((s / total) * n) / max_weight)%Q) ps))
        end))
      else Raise.

    (** buffers.py 212-244 [sample]: the batch, the weights and the indices. *)
    Definition per_sample (pneg : Q -> Q) (beta : Q) (p : per) (us : list Q) :=
      if Qltb 0 beta then
        obind (sample_proportional p us) (fun idxes =>
        obind (weights pneg beta p idxes) (fun ws =>
        match encode_sample (base p) idxes with
        | None => Raise
        | Some cols => Done (cols, ws, idxes)
        end))
      else Raise.
  End Prioritized.
End Replay.

Arguments transition : clear implicits.
Arguments buffer : clear implicits.
Arguments per : clear implicits.
