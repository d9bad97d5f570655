(** Model of the probability distributions over actions (neorl/rl/baselines/shared/distributions.py).

    Floats are exact real numbers.  A batch is one row: reductions over the last axis are sums over the list.
    A distribution is given by its flat parameters.  TensorFlow's random tensors are lists given from
    outside.  An exception is [None]. *)
From Coq Require Import List Arith ZArith Reals Lra.
Import ListNotations.
Open Scope R_scope.

(** tf.reduce_sum, tf.add_n. *)
Definition rsum (l : list R) : R := fold_right Rplus 0 l.
(** tf.reduce_max of a non-empty tensor. *)
Definition rmax (l : list R) : R := match l with [] => 0 | x :: t => fold_right Rmax x t end.

(** tf.argmax: the first index of a largest element.  Elements are compared by [lt]. *)
Fixpoint argmax_from {A} (lt : A -> A -> bool) (best : A) (bi i : nat) (l : list A) : nat :=
  match l with
  | [] => bi
  | x :: t => if lt best x then argmax_from lt x i (S i) t else argmax_from lt best bi (S i) t
  end.
Definition argmax {A} (lt : A -> A -> bool) (l : list A) : option nat :=
  match l with [] => None | x :: t => Some (argmax_from lt x 0 1 t) end.
Definition rlt (x y : R) : bool := if Rlt_dec x y then true else false.
(** Comparison of floats with minus infinity ([None]). *)
Definition xlt (x y : option R) : bool :=
  match x, y with _, None => false | None, Some _ => true | Some a, Some b => rlt a b end.

(** ** Categorical (lines 282-337) *)

(** a_0 = self.logits - tf.reduce_max(self.logits) (307-308, 317). *)
Definition shifted (l : list R) : list R := map (fun x => x - rmax l) l.
(** z_0 (309-312, 318-319). *)
Definition zsum (l : list R) : R := rsum (map exp (shifted l)).

(** mode (295-296). *)
Definition cat_mode (l : list R) : option nat := argmax rlt l.

(** tf.one_hot(x, n): all zeros when x is not one of 0..n-1 (301). *)
Definition one_hot (x : Z) (n : nat) : list R := map (fun i => if (x =? Z.of_nat i)%Z then 1 else 0) (seq 0 n).
(** tf.nn.softmax_cross_entropy_with_logits_v2. *)
Definition softmax_ce (labels logits : list R) : R :=
  rsum (map (fun yl => fst yl * (ln (zsum logits) - snd yl)) (combine labels (shifted logits))).
(** neglogp (298-304). *)
Definition cat_neglogp (l : list R) (x : Z) : R := softmax_ce (one_hot x (length l)) l.

(** kl (306-314), for distributions over the same number of actions. *)
Definition cat_kl (l m : list R) : R :=
  rsum (map (fun ab => exp (fst ab) / zsum l * (fst ab - ln (zsum l) - snd ab + ln (zsum m))) (combine (shifted l) (shifted m))).

(** entropy (316-321). *)
Definition cat_entropy (l : list R) : R := rsum (map (fun a => exp a / zsum l * (ln (zsum l) - a)) (shifted l)).

(** sample (323-327): [u] is the uniform tensor, in [0,1); log 0 is minus infinity. *)
Definition gumbel (lu : R * R) : option R := if Req_EM_T (snd lu) 0 then None else Some (fst lu - ln (- ln (snd lu))).
Definition cat_sample (l u : list R) : option nat := argmax xlt (map gumbel (combine l u)).

(** ** Several categoricals (lines 340-378) *)

(** tf.split(flat, nvec): raises unless the sizes add up to the length (349). *)
Fixpoint split_at (nvec : list nat) (flat : list R) : option (list (list R)) :=
  match nvec with
  | [] => match flat with [] => Some [] | _ => None end
  | n :: t => if (length flat <? n)%nat then None
              else match split_at t (skipn n flat) with None => None | Some r => Some (firstn n flat :: r) end
  end.
(** tf.add_n raises on an empty list (359, 362, 365). *)
Definition add_n (l : list R) : option R := match l with [] => None | _ => Some (rsum l) end.
Definition bind {A B} (x : option A) (f : A -> option B) : option B := match x with None => None | Some a => f a end.
Fixpoint all_some {A} (l : list (option A)) : option (list A) :=
  match l with [] => Some [] | None :: _ => None | Some x :: t => match all_some t with None => None | Some r => Some (x :: r) end end.
(** mode (355-356): tf.stack raises on an empty list. *)
Definition multi_mode (nvec : list nat) (flat : list R) : option (list nat) :=
  bind (split_at nvec flat) (fun ls => match ls with [] => None | _ => all_some (map cat_mode ls) end).
(** neglogp (358-359): zip of the parts and of the entries of x. *)
Definition multi_neglogp (nvec : list nat) (flat : list R) (x : list Z) : option R :=
  bind (split_at nvec flat) (fun ls => add_n (map (fun lx => cat_neglogp (fst lx) (snd lx)) (combine ls x))).
(** kl (361-362). *)
Definition multi_kl (nvec : list nat) (flat other : list R) : option R :=
  bind (split_at nvec flat) (fun ls => bind (split_at nvec other) (fun ms => add_n (map (fun lm => cat_kl (fst lm) (snd lm)) (combine ls ms)))).
(** entropy (364-365). *)
Definition multi_entropy (nvec : list nat) (flat : list R) : option R := bind (split_at nvec flat) (fun ls => add_n (map cat_entropy ls)).
(** sample (367-368): one uniform tensor for each part. *)
Definition multi_sample (nvec : list nat) (flat : list R) (us : list (list R)) : option (list nat) :=
  bind (split_at nvec flat) (fun ls => match ls with [] => None | _ => all_some (map (fun lu => cat_sample (fst lu) (snd lu)) (combine ls us)) end).

(** ** Gaussian with independent coordinates (lines 381-429) *)

(** __init__ (382-393): tf.split into two halves raises when the length is odd; std = exp(logstd). *)
Definition halves (flat : list R) : option (list R * list R) :=
  if Nat.even (length flat) then Some (firstn (length flat / 2) flat, skipn (length flat / 2) flat) else None.
Definition map3 {A B C D} (f : A -> B -> C -> D) (a : list A) (b : list B) (c : list C) : list D :=
  map (fun t => f (fst t) (fst (snd t)) (snd (snd t))) (combine a (combine b c)).
Definition sq (x : R) : R := x * x.
(** neglogp (402-405). *)
Definition gauss_neglogp (flat x : list R) : option R :=
  bind (halves flat) (fun p => Some (5 / 10 * rsum (map3 (fun y m s => sq ((y - m) / exp s)) x (fst p) (snd p))
    + 5 / 10 * ln (2 * PI) * INR (length x) + rsum (snd p))).
(** kl (407-410). *)
Definition gauss_kl (flat other : list R) : option R :=
  bind (halves flat) (fun p => bind (halves other) (fun q =>
    Some (rsum (map3 (fun ms1 s0 s1 => s1 - s0 + (sq (exp s0) + sq (fst ms1 - snd ms1)) / (2 * sq (exp s1)) - 5 / 10)
            (combine (fst p) (fst q)) (snd p) (snd q))))).
(** entropy (412-413). *)
Definition gauss_entropy (flat : list R) : option R := bind (halves flat) (fun p => Some (rsum (map (fun s => s + 5 / 10 * ln (2 * PI * exp 1)) (snd p)))).
(** mode (398-400). *)
Definition gauss_mode (flat : list R) : option (list R) := bind (halves flat) (fun p => Some (fst p)).
(** sample (415-419): [e] is the tensor of normal numbers. *)
Definition gauss_sample (flat e : list R) : option (list R) :=
  bind (halves flat) (fun p => Some (map3 (fun m s z => m + exp s * z) (fst p) (snd p) e)).
(** DiagGaussianProbabilityDistributionType.proba_distribution_from_latent (238-243): logstd is a variable
    of its own, the same for all observations, and starts at zero. *)
Definition gauss_first (mean : list R) : list R := mean ++ map (fun x => x * 0 + 0) mean.

(** ** Independent bits (lines 432-476) *)

(** tf.sigmoid (440). *)
Definition sigmoid (x : R) : R := 1 / (1 + exp (- x)).
(** tf.nn.sigmoid_cross_entropy_with_logits, in the form of its documentation. *)
Definition sigmoid_ce (x z : R) : R := Rmax x 0 - x * z + ln (1 + exp (- Rabs x)).
(** mode (446-447): tf.round takes one half to zero. *)
Definition bern_mode (l : list R) : list nat := map (fun x => if Rlt_dec (1 / 2) (sigmoid x) then 1%nat else 0%nat) l.
(** neglogp (449-452). *)
Definition bern_neglogp (l : list R) (x : list nat) : R := rsum (map (fun lx => sigmoid_ce (fst lx) (INR (snd lx))) (combine l x)).
(** kl (454-458). *)
Definition bern_kl (l m : list R) : R :=
  rsum (map (fun ml => sigmoid_ce (fst ml) (sigmoid (snd ml))) (combine m l)) - rsum (map (fun x => sigmoid_ce x (sigmoid x)) l).
(** entropy (460-462). *)
Definition bern_entropy (l : list R) : R := rsum (map (fun x => sigmoid_ce x (sigmoid x)) l).
(** sample (464-466). *)
Definition bern_sample (l u : list R) : list nat := map (fun lu => if Rlt_dec (snd lu) (sigmoid (fst lu)) then 1%nat else 0%nat) (combine l u).
