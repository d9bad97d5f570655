(** Vocabulary for the theorems about FNEAT and RNEAT (C79). *)
From Coq Require Import List Arith ZArith QArith Bool.
From Verif Require Import Base Space_Model Opt_Model Opt_Spec Env_Model NE_Model.
Import ListNotations.
Open Scope nat_scope.

(** [y] is the best of the values [l]. *)
Definition top (m : mode) (l : list Q) (y : Q) : Prop := (exists v, In v l /\ (y == v)%Q) /\ Forall (fun v => as_good m y v) l.

(** Exactly the last result says done. *)
Definition till_done (rs : list eresult) : Prop := exists l r, rs = l ++ [r] /\ Forall (fun r => r_done r = false) l /\ r_done r = true.

Section Spec.
  Context {G N : Type} (net_new : G -> N) (activate : N -> list Q -> N * list Q)
          (fit : list val -> Q) (act_sample : nat -> action) (obs_sample : nat -> list Q) (randint : nat -> Z -> Z -> Z) (c : econf)
          (sp : aspace) (x0 : option (list Q)).

  (** [rs] are the results of consecutive steps of the environment from [st] to [st'], each with the action
      the network gives for the last observation. *)
  Fixpoint played (n : N) (ob : list Q) (st : estate) (rs : list eresult) (st' : estate) : Prop :=
    match rs with
    | [] => st' = st
    | r :: l => exists a st1, net_action sp (snd (activate n ob)) = Some a /\ env_step fit obs_sample randint c sp st a = Some (r, st1) /\
                  played (fst (activate n ob)) (r_state r) st1 l st'
    end.
  (** The episode of genome [g]: it starts at x0 if given, else with a reset, and ends when the environment
      says done. *)
  Definition episode (g : G) (st : estate) (rs : list eresult) (st' : estate) : Prop :=
    exists f, first_input act_sample obs_sample c x0 st = Some f /\ played (net_new g) (fst f) (snd f) rs st' /\ till_done rs.
  (** One after the other in the same environment. *)
  Fixpoint episodes (gs : list G) (st : estate) (eps : list (list eresult)) (st' : estate) : Prop :=
    match gs, eps with
    | [], [] => st' = st
    | g :: gs', rs :: eps' => exists st1, episode g st rs st1 /\ episodes gs' st1 eps' st'
    | _, _ => False
    end.
  (** Each in a copy of the same environment. *)
  Definition copies (gs : list G) (st : estate) (eps : list (list eresult)) : Prop := Forall2 (fun g rs => exists st', episode g st rs st') gs eps.
End Spec.

(** The genomes of a run: generation by generation, each list given by the library for the fitnesses of
    the earlier generations. *)
Fixpoint given {G} (lib : list (list Q) -> option (list G)) (past : list (list Q)) (gens : list (list G)) (fits : list (list Q)) : Prop :=
  match gens, fits with
  | [], [] => True
  | gs :: gens', fs :: fits' => lib past = Some gs /\ length fs = length gs /\ given lib (past ++ [fs]) gens' fits'
  | _, _ => False
  end.

(** The user's fitness of the individuals of an episode; of the last one. *)
Definition values_of (fit : list val -> Q) (rs : list eresult) : list Q := map (fun r => fit (r_x r)) rs.
Definition last_of (rs : list eresult) : list eresult := match rev rs with r :: _ => [r] | [] => [] end.

(** The history of a run with these episodes.  Global fitness number k is the best value of what [pick]
    keeps of the episodes up to number k; local fitness number k is the best value of episode k. *)
Definition hist_ok (m : mode) (fit : list val -> Q) (pick : list eresult -> list eresult) (eps : list (list eresult)) (gl lo : list Q) : Prop :=
  length gl = length eps /\ length lo = length eps /\
  forall k e, nth_error eps k = Some e ->
    (exists a, nth_error gl k = Some a /\ top m (values_of fit (concat (map pick (firstn (S k) eps)))) a) /\
    (exists b, nth_error lo k = Some b /\ top m (values_of fit e) b).
Definition all_of (rs : list eresult) : list eresult := rs.
(** [f] is the reward of the last step. *)
Definition last_reward (f : Q) (rs : list eresult) : Prop := exists r, last_of rs = [r] /\ f = r_reward r.
