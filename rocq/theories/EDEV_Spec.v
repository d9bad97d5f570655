(** Specification vocabulary for EDEV. *)
From Coq Require Import List Arith ZArith QArith Bool Permutation.
From Verif Require Import Base Space_Model Space_Spec Opt_Model Opt_Spec Pop_Model EDEV_Model.
Import ListNotations.
Open Scope nat_scope.

(** [np.random.permutation(n)] returns an arrangement of 0..n-1. *)
Definition start_draws_ok (npop : nat) (sd : sdraw) : Prop :=
  Permutation (i_perm sd) (seq 0 npop) /\ Permutation (i_spara sd) [0; 1; 2].
Definition draws_ok (npop : nat) (d : edraw) : Prop :=
  Permutation (e_perm d) (seq 0 npop) /\
  (forall n, Permutation (j_cut (e_j d) n) (seq 0 n)) /\
  (forall n i, Permutation (p_ind (e_p d) n i) (seq 0 n)).

(** The three sub-populations: every individual is in exactly one of them; two of them have [s]
    members and the third all others. *)
Definition partition (npop s : nat) (g : groups) : Prop :=
  Permutation (g1 g ++ g2 g ++ g3 g) (seq 0 npop) /\
  exists big, (big = g1 g \/ big = g2 g \/ big = g3 g) /\ length big = npop - 2 * s /\
    Permutation [length (g1 g); length (g2 g); length (g3 g)] [length big; s; s].

(** The state of the population between generations: [npop] points of the space, with the
    internally minimised value of each. *)
Definition slots_ok (m : mode) (fit : list Q -> Q) (ds : list dimn) (npop : nat) (pop : list (list Q)) (vals : list Q) : Prop :=
  length pop = npop /\ Forall (feasible ds) pop /\ Forall2 (fun x v => (v == as_min m (fit x))%Q) pop vals.

(** Slot by slot, the second population is at least as good as the first. *)
Definition no_slot_worse (m : mode) (fit : list Q -> Q) (a b : list (list Q)) : Prop :=
  Forall2 (fun x x' => as_good m (fit x') (fit x)) a b.

(** [R] holds between any two consecutive members of [a :: l]. *)
Fixpoint chain {A} (R : A -> A -> Prop) (a : A) (l : list A) : Prop :=
  match l with [] => True | b :: r => R a b /\ chain R b r end.

(** [y] is the best value of the members of the population at the positions [idx]. *)
Definition group_best (m : mode) (fit : list Q -> Q) (pop : list (list Q)) (idx : list nat) (y : Q) : Prop :=
  (exists i x, In i idx /\ nth_error pop i = Some x /\ (y == fit x)%Q) /\
  (forall i x, In i idx -> nth_error pop i = Some x -> as_good m y (fit x)).

(** What one history entry (global, JADE, CoDE, EPSDE) says about the population at the end of
    its generation. *)
Definition entry_ok (m : mode) (fit : list Q -> Q) (npop : nat) (t : groups * list (list Q) * list Q) (h : Q * Q * Q * Q) : Prop :=
  let '(g, pop, _) := t in
  let '(y, y1, y2, y3) := h in
  group_best m fit pop (seq 0 npop) y /\
  group_best m fit pop (g1 g) y1 /\ group_best m fit pop (g2 g) y2 /\ group_best m fit pop (g3 g) y3.

(** Evaluations of the generations: one for each member of the first and third sub-population,
    three for each member of the second. *)
Definition evaluations (tr : list (groups * list (list Q) * list Q)) : nat :=
  list_sum (map (fun t => length (g1 (fst (fst t))) + 3 * length (g2 (fst (fst t))) + length (g3 (fst (fst t)))) tr).

(** The donor search of JADE succeeds (within its 1001 attempts) for the given numbers of
    parents and archived individuals. *)
Definition donors_found (d : jdraw) (n arch : nat) : Prop :=
  gnR1R2 n (n - 1) (n + arch - 1) (j_r1 d) (j_r2 d) <> None.

(** The draws suffice for a whole run: the donor searches succeed, and the lists of donor draws
    of CoDE are long enough. *)
Definition enough_draws (npop s : nat) (d : edraw) : Prop :=
  (forall n a, (n = s \/ n = npop - 2 * s) -> a <= npop - 2 * s -> donors_found (e_j d) n a) /\
  (forall i, 3 <= length (g_a (c_g (e_c d) i)) /\ 5 <= length (g_b (c_g (e_c d) i))).

(** C55: donor positions. [r1], [r2] are the base and archive donors of the JADE rows. *)
Definition jade_donors_ok (n all : nat) (r1 r2 : list nat) : Prop :=
  length r1 = n /\ length r2 = n /\
  forall i a b, nth_error r1 i = Some a -> nth_error r2 i = Some b ->
    1 <= a < n /\ 1 <= b < all /\ a <> i /\ b <> i /\ a <> b.

(** A strategy number and parameters from the documented pools. *)
Definition from_pools (q : para) : Prop :=
  q_str q < 3 /\ In (q_CR q) [1 # 10; 2 # 10; 3 # 10; 4 # 10; 5 # 10; 6 # 10; 7 # 10; 8 # 10; 9 # 10]%Q /\
  In (q_F q) [4 # 10; 5 # 10; 6 # 10; 7 # 10; 8 # 10; 9 # 10]%Q.

(** No point is listed twice. *)
Definition distinct_rows (l : list (list Q)) : Prop :=
  forall i j a b, i <> j -> nth_error l i = Some a -> nth_error l j = Some b -> ~ Forall2 Qeq a b.

(** The same draws with other scale factors. *)
Definition with_F (d : jdraw) (F : nat -> Q) : jdraw :=
  JDraw F (j_CR d) (j_r1 d) (j_r2 d) (j_pb d) (j_mask d) (j_col d) (j_vd d) (j_cut d).
