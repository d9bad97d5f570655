(** The annealing agent of the input files: neorl/evolu/runners/sa.py.

    Simplifications.  Coordinates are integers ([randint] and the rows of the dataset; the file of the dataset may
    hold other numbers).  Rewards, temperatures and the uniform draws are exact reals.  Each random choice is an
    arbitrary argument of the model, see [draw].  Printing is kept as a list of reports (unrounded); plotting is
    left out.  [fit] may answer differently at every call, so it takes the number of the call. *)
Require Import List ZArith Arith Bool Reals.
Import ListNotations.

(** What a method of the agent does: return, raise an exception, or not return within the given number of
    resamplings. *)
Inductive outcome (V : Type) : Type := Done (v : V) | Raises | Loops.
Arguments Done {V} v.
Arguments Raises {V}.
Arguments Loops {V}.

Definition bind {V W} (o : outcome V) (f : V -> outcome W) : outcome W :=
  match o with Done v => f v | Raises => Raises | Loops => Loops end.
Definition lift {V} (o : option V) : outcome V :=
  match o with Some v => Done v | None => Raises end.

(** The options [swap] and [cooling] of the card (sa.py 57, 65, 234-245 and 260-268).  The dataset of [kbs] is
    read by the constructor, sa.py 71-79. *)
Inductive swap := Single | Dual | Quad | Full | Kbs | OtherSwap.
Inductive cooling := Fast | Boltzmann | Cauchy | OtherCooling.

(** The card [SA] after parsing (sa.py 54-79; ParamList.py [sa_dict]): [None] for bounds that are not given.
    [c_start] is [initstate].  [c_size] is [xsize] of the card [GENERAL]. *)
Record card := mkCard {
  c_tmax : R; c_tmin : R; c_steps : nat; c_swap : swap; c_freq : nat;
  c_lb : option (list Z); c_ub : option (list Z);
  c_indpb : R; c_cooling : cooling; c_size : nat; c_start : option (list Z);
  c_pkbs : R; c_rows : list (list Z) }.

(** The random numbers of one step: the two indices of [random.sample], the pairs of integers of the successive
    tries, a coin and an integer for each coordinate, the coin and the row of [kbs], and the number of the
    acceptance test.  A raw integer is brought into its range by [randint], an index by [pick2] and [kbs_row], so
    every value stands for a possible run and every run is met. *)
Record draw := mkDraw {
  d_a : nat; d_b : nat; d_pairs : nat -> Z * Z; d_coins : nat -> R; d_ints : nat -> Z;
  d_kcoin : R; d_row : nat; d_alpha : R }.

(** [np.random.randint(lo, hi)], which raises unless [lo < hi]. *)
Definition randint (lo hi raw : Z) : option Z :=
  if (lo <? hi)%Z then Some (lo + raw mod (hi - lo))%Z else None.

(** [random.sample(self.x_index, 2)]: two different indices below [n] (sa.py 88, 114). *)
Definition pick2 (n a b : nat) : option (nat * nat) :=
  if n <? 2 then None
  else let i := a mod n in
       let j := b mod (n - 1) in
       Some (i, if j <? i then j else S j).

(** Bounds as the constructor keeps them: integers, the upper ones plus one (sa.py 59-63).  Bounds that are not
    given raise there, since [None] cannot be iterated. *)
Record limits := mkLimits { l_lb : list Z; l_ub : list Z }.
Definition init_limits (c : card) : outcome limits :=
  match c_lb c, c_ub c with
  | Some lb, Some ub => Done (mkLimits lb (map (fun u => (u + 1)%Z) ub))
  | _, _ => Raises
  end.

(** [len(self.lbound) == 1 and len(self.ubound) == 1]. *)
Definition one_range (l : limits) : bool :=
  (length (l_lb l) =? 1) && (length (l_ub l) =? 1).

(** The range of the coordinate [i]: the only one, or entry [i] of both lists (sa.py 95-98, 101-104). *)
Definition range_of (l : limits) (i : nat) : option (Z * Z) :=
  let k := if one_range l then 0 else i in
  match nth_error (l_lb l) k, nth_error (l_ub l) k with
  | Some a, Some b => Some (a, b)
  | _, _ => None
  end.

(** [x[i] = v] on an existing index. *)
Fixpoint put (x : list Z) (i : nat) (v : Z) : list Z :=
  match x, i with
  | [], _ => []
  | _ :: t, O => v :: t
  | a :: t, S i' => a :: put t i' v
  end.

(** The loop [while self.x[index1] == sample] of [singleswap] with the draw before it (sa.py 95-104). *)
Fixpoint resample1 (fuel k : nat) (r : Z * Z) (cur : Z) (raws : nat -> Z * Z) : outcome Z :=
  match fuel with
  | O => Loops
  | S f => bind (lift (randint (fst r) (snd r) (fst (raws k)))) (fun v =>
           if (cur =? v)%Z then resample1 f (S k) r cur raws else Done v)
  end.

(** [singleswap], sa.py 84-108 (the branch without bounds cannot be reached, see [init_limits]). *)
Definition singleswap (fuel n : nat) (l : limits) (x : list Z) (d : draw) : outcome (list Z) :=
  bind (lift (pick2 n (d_a d) (d_b d))) (fun ij =>
  bind (lift (range_of l (fst ij))) (fun r =>
  bind (lift (nth_error x (fst ij))) (fun cur =>
  bind (resample1 fuel 0 r cur (d_pairs d)) (fun v => Done (put x (fst ij) v))))).

(** The loop of [dualswap] with the draws before it: both numbers are drawn again as long as one of them is the
    present one (sa.py 120-129). *)
Fixpoint resample2 (fuel k : nat) (r1 r2 : Z * Z) (cur1 cur2 : Z) (raws : nat -> Z * Z) : outcome (Z * Z) :=
  match fuel with
  | O => Loops
  | S f => bind (lift (randint (fst r1) (snd r1) (fst (raws k)))) (fun v1 =>
           bind (lift (randint (fst r2) (snd r2) (snd (raws k)))) (fun v2 =>
           if ((cur1 =? v1)%Z || (cur2 =? v2)%Z)%bool then resample2 f (S k) r1 r2 cur1 cur2 raws
           else Done (v1, v2)))
  end.

(** [dualswap], sa.py 110-133. *)
Definition dualswap (fuel n : nat) (l : limits) (x : list Z) (d : draw) : outcome (list Z) :=
  bind (lift (pick2 n (d_a d) (d_b d))) (fun ij =>
  bind (lift (range_of l (fst ij))) (fun r1 =>
  bind (lift (range_of l (snd ij))) (fun r2 =>
  bind (lift (nth_error x (fst ij))) (fun cur1 =>
  bind (lift (nth_error x (snd ij))) (fun cur2 =>
  bind (resample2 fuel 0 r1 r2 cur1 cur2 (d_pairs d)) (fun v =>
  Done (put (put x (fst ij) (fst v)) (snd ij) (snd v)))))))).

(** [quadswap], sa.py 136-155: four indices are drawn; with one range [self.ubound+1] adds a number to a list,
    which raises; with several ranges there is no branch at all. *)
Definition quadswap (n : nat) (l : limits) (x : list Z) : outcome (list Z) :=
  if n <? 4 then Raises else if one_range l then Raises else Done x.

(** [np.random.randint(lo, hi, k)]: [k] numbers of one range; the raw numbers are taken from place [i] on. *)
Fixpoint randints (lo hi : Z) (k i : nat) (raws : nat -> Z) : option (list Z) :=
  match k with
  | O => Some []
  | S k' => match randint lo hi (raws i), randints lo hi k' (S i) raws with
            | Some v, Some t => Some (v :: t)
            | _, _ => None
            end
  end.
(** The array version checks its bounds even for an array without elements. *)
Definition randint_array (lo hi : Z) (k : nat) (raws : nat -> Z) : option (list Z) :=
  if (lo <? hi)%Z then randints lo hi k 0 raws else None.

(** The loop over the coordinates of [fullswap] and [kbs]: each is drawn again if its coin is below [indpb]
    (sa.py 165-167, 188-194). *)
Fixpoint redraw (l : limits) (p : R) (i : nat) (x : list Z) (d : draw) : option (list Z) :=
  match x with
  | [] => Some []
  | a :: t =>
      match (if Rlt_dec (d_coins d i) p
             then match range_of l i with
                  | Some r => randint (fst r) (snd r) (d_ints d i)
                  | None => None
                  end
             else Some a), redraw l p (S i) t d with
      | Some v, Some t' => Some (v :: t')
      | _, _ => None
      end
  end.

(** [fullswap], sa.py 157-168. *)
Definition fullswap (l : limits) (p : R) (x : list Z) (d : draw) : outcome (list Z) :=
  if one_range l then
    match l_lb l, l_ub l with
    | [lo], [hi] => lift (randint_array lo hi (length x) (d_ints d))
    | _, _ => Raises
    end
  else lift (redraw l p 0 x d).

(** [random.sample(self.ind_list,1)[0]], which raises on an empty list (sa.py 175). *)
Definition kbs_row (inds : list nat) (raw : nat) : option nat :=
  nth_error inds (raw mod length inds).

(** [self.ind_list.remove(ind)]: the first occurrence goes (sa.py 176). *)
Fixpoint remove_first (k : nat) (l : list nat) : list nat :=
  match l with
  | [] => []
  | a :: t => if a =? k then t else a :: remove_first k t
  end.

(** [kbs], sa.py 170-198: a row of the dataset that was not used since the list of rows was last refilled, or a
    redraw of some coordinates.  The result is the point, the rows left, and the row used. *)
Definition kbs (c : card) (l : limits) (x : list Z) (inds : list nat) (d : draw)
  : outcome (list Z * list nat * option nat) :=
  if Rlt_dec (d_kcoin d) (c_pkbs c) then
    bind (lift (kbs_row inds (d_row d))) (fun ind =>
    let rest := remove_first ind inds in
    let left := match rest with [] => seq 0 (length (c_rows c)) | _ => rest end in
    bind (lift (nth_error (c_rows c) ind)) (fun row => Done (row, left, Some ind)))
  else
    bind (lift (redraw l (c_indpb c) 0 x d)) (fun x' => Done (x', inds, None)).

(** [self.move()], as chosen in sa.py 234-245. *)
Definition move (fuel : nat) (c : card) (l : limits) (x : list Z) (inds : list nat) (d : draw)
  : outcome (list Z * list nat * option nat) :=
  let keep o := bind o (fun x' => Done (x', inds, None)) in
  match c_swap c with
  | Single => keep (singleswap fuel (c_size c) l x d)
  | Dual => keep (dualswap fuel (c_size c) l x d)
  | Quad => keep (quadswap (c_size c) l x)
  | Full => keep (fullswap l (c_indpb c) x d)
  | Kbs => kbs c l x inds d
  | OtherSwap => Raises
  end.

(** The temperature of a step, sa.py 260-268. *)
Definition temperature (c : card) (step : nat) : option R :=
  match c_cooling c with
  | Fast => Some (c_tmax c * exp (- ln (c_tmax c / c_tmin c) * INR step / INR (c_steps c)))%R
  | Boltzmann => Some (c_tmax c / ln (INR step + 1))%R
  | Cauchy => Some (c_tmax c / (INR step + 1))%R
  | OtherCooling => None
  end.

(** What a step did (recorded by the model only): the point and reward before it, the point proposed with its
    reward, temperature and random number, the point and reward after it, and the row of the dataset used. *)
Record event := mkEvent {
  e_from : list Z; e_from_r : R; e_new : list Z; e_new_r : R; e_temp : R; e_alpha : R;
  e_after : list Z; e_after_r : R; e_row : option nat }.

(** The lines printed for a step: step, temperature, numbers behind the two rates, best reward and solution
    (sa.py 306-327). *)
Record report := mkReport {
  r_step : nat; r_temp : R; r_accepts : nat; r_improves : nat; r_trials : nat; r_best : R; r_x : list Z }.

(** The variables of [build] (sa.py 200-330).  [s_events] and [s_reports] list the newest last. *)
Record state := mkState {
  s_x : list Z; s_xprev : list Z; s_xbest : list Z; s_eprev : R; s_ebest : R;
  s_step : nat; s_trials : nat; s_accepts : nat; s_improves : nat; s_inds : list nat;
  s_events : list event; s_reports : list report }.

(** [np.random.randint(self.lbound, self.ubound)] on two lists: they are brought to one length if one of them has
    a single entry (sa.py 214). *)
Definition broadcast (lb ub : list Z) : option (list (Z * Z)) :=
  if length lb =? length ub then Some (combine lb ub)
  else match lb, ub with
       | [a], _ => Some (map (fun b => (a, b)) ub)
       | _, [b] => Some (map (fun a => (a, b)) lb)
       | _, _ => None
       end.
Fixpoint randint_each (rs : list (Z * Z)) (i : nat) (raws : nat -> Z) : option (list Z) :=
  match rs with
  | [] => Some []
  | r :: t => match randint (fst r) (snd r) (raws i), randint_each t (S i) raws with
              | Some v, Some t' => Some (v :: t')
              | _, _ => None
              end
  end.

(** The initial point, sa.py 207-216.  A start of the card is an array; comparing it with [None] gives an array of
    booleans, whose truth value is an error unless it has at most one entry. *)
Definition init_x (c : card) (l : limits) (raws : nat -> Z) : outcome (list Z) :=
  match c_start c with
  | Some x => if 2 <=? length x then Raises else Done x
  | None =>
      if one_range l then
        match l_lb l, l_ub l with
        | [lo], [hi] => lift (randint_array lo hi (c_size c) raws)
        | _, _ => Raises
        end
      else match broadcast (l_lb l) (l_ub l) with
           | Some rs => lift (randint_each rs 0 raws)
           | None => Raises
           end
  end.

(** One pass of the loop, sa.py 257-330; [fit] is asked with the number of the call, the initial one being 0. *)
Definition anneal_step (fuel : nat) (c : card) (l : limits) (fit : nat -> list Z -> R) (d : draw) (s : state)
  : outcome state :=
  let step := S (s_step s) in
  bind (lift (temperature c step)) (fun T =>
  bind (move fuel c l (s_x s) (s_inds s) d) (fun m =>
  let x := fst (fst m) in
  let inds := snd (fst m) in
  let reward := fit step x in
  let energy := (- reward)%R in
  let dE := (energy - s_eprev s)%R in
  let trials := S (s_trials s) in
  let s1 :=
    if (if Rlt_dec 0 dE then if Rlt_dec (exp (- dE / T)) (d_alpha d) then true else false else false) then
      mkState (s_xprev s) (s_xprev s) (s_xbest s) (s_eprev s) (s_ebest s)
              step trials (s_accepts s) (s_improves s) inds (s_events s) (s_reports s)
    else
      let better := if Rlt_dec energy (s_ebest s) then true else false in
      mkState x x (if better then x else s_xbest s) energy (if better then energy else s_ebest s)
              step trials (S (s_accepts s)) (if Rlt_dec dE 0 then S (s_improves s) else s_improves s)
              inds (s_events s) (s_reports s) in
  let ev := mkEvent (s_x s) (- s_eprev s) x reward T (d_alpha d) (s_x s1) (- s_eprev s1) (snd m) in
  let evs := s_events s ++ [ev] in
  match c_freq c with
  | O => Raises
  | S _ =>
      if ((step mod c_freq c =? 0) || (step =? c_steps c))%bool then
        let rep := mkReport step T (s_accepts s1) (s_improves s1) trials (- s_ebest s1) (s_xbest s1) in
        Done (mkState (s_x s1) (s_xprev s1) (s_xbest s1) (s_eprev s1) (s_ebest s1) step 0 0 0 inds
                      evs (s_reports s ++ [rep]))
      else
        Done (mkState (s_x s1) (s_xprev s1) (s_xbest s1) (s_eprev s1) (s_ebest s1) step trials
                      (s_accepts s1) (s_improves s1) inds evs (s_reports s))
  end)).

(** [while step <= self.steps], sa.py 255, for at most [n] passes. *)
Fixpoint anneal_loop (n fuel : nat) (c : card) (l : limits) (fit : nat -> list Z -> R) (D : nat -> draw) (s : state)
  : outcome state :=
  if s_step s <=? c_steps c then
    match n with
    | O => Loops
    | S n' => bind (anneal_step fuel c l fit (D (S (s_step s))) s) (anneal_loop n' fuel c l fit D)
    end
  else Done s.

(** The unknown [swap] is refused before the loop, sa.py 244-245. *)
Definition known_swap (s : swap) : bool := match s with OtherSwap => false | _ => true end.

(** The constructor and [build], sa.py 34-82 and 200-330.  Two passes more than [steps] are more than the loop can
    use. *)
Definition build (fuel : nat) (c : card) (fit : nat -> list Z -> R) (raws : nat -> Z) (D : nat -> draw)
  : outcome state :=
  bind (init_limits c) (fun l =>
  bind (init_x c l raws) (fun x0 =>
  let e0 := (- fit 0%nat x0)%R in
  if known_swap (c_swap c) then
    anneal_loop (S (S (c_steps c))) fuel c l fit D
      (mkState x0 x0 x0 e0 e0 0 0 0 0 (seq 0 (length (c_rows c))) [] [])
  else Raises)).
