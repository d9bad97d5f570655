(** What the genetic algorithm of the input files is expected to do. *)
From Coq Require Import List Arith ZArith QArith Bool Sorted Permutation.
From Verif Require Import Base Space_Model Space_Spec ES_Model GX_Model.
Import ListNotations.
Open Scope nat_scope.

(** The uniform numbers of the initial individuals lie in [0, 1]. *)
Definition units (ini : nat -> idraw) : Prop :=
  forall k i, (0 <= id_u (ini k) i)%Q /\ (id_u (ini k) i <= 1)%Q /\ (0 <= id_s (ini k) i)%Q /\ (id_s (ini k) i <= 1)%Q.

(** The number of individuals of a generation, as the card asks for it: [lambda], or [pop] if [lambda] is not given
    or 0. *)
Definition asked (c : ga_card) : nat :=
  match g_lambda c with Some n => if n =? 0 then g_mu c else n | None => g_mu c end.

(** A sound card: ranges with lo <= hi, whole numbers for integers, 0 < smin < smax <= 1, points of the space in the
    dataset. *)
Definition sound (c : ga_card) : Prop :=
  wf_dims (g_dims c) /\ (0 < g_smin c)%Q /\ (g_smin c < g_smax c)%Q /\ (g_smax c <= 1)%Q /\
  (forall rows frac, g_kbs c = Some (rows, frac) -> Forall (feasible (g_dims c)) rows).

(** [kept] are [mu] members of [off] with the greatest rewards, the best first. *)
Definition best_of (mu : nat) (off kept : list member) : Prop :=
  exists rest, Permutation off (kept ++ rest) /\ length kept = Nat.min mu (length off) /\
    StronglySorted (fun a b => (m_fit b <= m_fit a)%Q) kept /\
    forall a b, In a kept -> In b rest -> (m_fit b <= m_fit a)%Q.

(** [pop] is [kept] with [k] different rows of the dataset in its last [k] places, the strategies left alone. *)
Definition refreshed (rows : list (list Q)) (k : nat) (kept pop : list member) : Prop :=
  exists is, NoDup is /\ length is = k /\ k <= length kept /\ length pop = length kept /\
    (forall j, j < length kept - k -> nth_error pop j = nth_error kept j) /\
    (forall i r, nth_error is i = Some r -> exists m m' row,
       nth_error pop (length kept - S i) = Some m /\ nth_error kept (length kept - S i) = Some m' /\
       nth_error rows r = Some row /\ m_ind m = row /\ m_strat m = m_strat m').

(** The population that follows the offspring [off]. *)
Definition next_parents (c : ga_card) (off pop : list member) : Prop :=
  exists kept, best_of (g_mu c) off kept /\
    match g_kbs c with
    | None => pop = kept
    | Some (rows, frac) => (0 <= kbs_count c frac)%Z /\ refreshed rows (Z.to_nat (kbs_count c frac)) kept pop
    end.

(** The generations follow one another. *)
Inductive succession (c : ga_card) : list member -> list generation -> Prop :=
| succession_nil : forall pop, succession c pop []
| succession_cons : forall pop g gs pop',
    gn_parents g = pop -> next_parents c (gn_offspring g) pop' -> succession c pop' gs ->
    succession c pop (g :: gs).


(** Strategies of whole numbers lie between smin and smax. *)
Definition strat_int (c : ga_card) (st : list Q) : Prop :=
  Forall2 (fun d s => d_int d = true -> (g_smin c <= s)%Q /\ (s <= g_smax c)%Q) (g_dims c) st.

(** [x] is [a] with the entries [p <= k < q] of [b]. *)
Definition exchange (p q : nat) (a b x : list Q) : Prop :=
  length x = length a /\
  forall k, nth_error x k = if (p <=? k) && (k <? q) then nth_error b k else nth_error a k.

(** A child of two different parents with one stretch exchanged, in the individual and in the strategy. *)
Definition crossed (pop : list member) (o : member) : Prop :=
  exists i j a b p q, i <> j /\ nth_error pop i = Some a /\ nth_error pop j = Some b /\
    1 <= p /\ p < q /\ q <= length (m_ind a) /\
    exchange p q (m_ind a) (m_ind b) (m_ind o) /\ exchange p q (m_strat a) (m_strat b) (m_strat o).
(** A child that is a copy of a parent. *)
Definition copied (pop : list member) (o : member) : Prop :=
  exists m, In m pop /\ m_ind o = m_ind m /\ m_strat o = m_strat m.
(** The greatest reward of the members. *)
Definition greatest (q : Q) (l : list member) : Prop :=
  (exists m, In m l /\ m_fit m = q) /\ forall m, In m l -> (m_fit m <= q)%Q.

(** The dataset is large enough and its share is not more than what survives. *)
Definition enough (c : ga_card) : Prop :=
  match g_kbs c with
  | None => True
  | Some (rows, frac) => ga_lambda c < length rows /\ (0 <= kbs_count c frac)%Z /\
                         (kbs_count c frac <= Z.of_nat (Nat.min (g_mu c) (ga_lambda c)))%Z
  end.
