(** Model of acting and of the loss of DQN (neorl/rl/baselines/deepq/build_graph.py) and of the losses of
    PPO2 and A2C (ppo2/ppo2.py, a2c/a2c.py).

    Floats are exact real numbers.  A network is a function from observations to the values it puts out for
    each action; gradients and optimizers are not modelled. *)
From Coq Require Import String List Arith ZArith Reals Lra.
From Verif Require Import PD_Model.
Import ListNotations.
Open Scope R_scope.

(** ** Acting (build_graph.py:125-161) *)
Section Act.
  Context {Obs : Type}.
  Variable q : Obs -> list R.
  (** update_eps_expr (152): a negative value keeps the variable. *)
  Definition next_eps (eps upd : R) : R := if Rle_dec 0 upd then upd else eps.
  (** One row of output_actions (143-151): [u] the uniform number, [rnd] the random action. *)
  Definition act_row (eps : R) (stochastic : bool) (o : Obs) (u : R) (rnd : nat) : option nat :=
    match argmax rlt (q o) with
    | None => None
    | Some d => Some (if stochastic then (if Rlt_dec u eps then rnd else d) else d)
    end.
  (** act (153-161): the actions and the new value of eps are computed in one run of the session with no order
      between reading and assigning eps; [after] tells whether the comparison reads the new value. *)
  Definition act (eps : R) (obs : list Obs) (stochastic : bool) (upd : R) (after : bool) (draws : list (R * nat)) : option (list nat) * R :=
    let e := if after then next_eps eps upd else eps in
    (all_some (map (fun od => act_row e stochastic (fst od) (fst (snd od)) (snd (snd od))) (combine obs draws)), next_eps eps upd).
  (** The variable eps after a history of calls with these values of update_eps; it starts at 0 (139). *)
  Definition eps_after (upds : list R) : R := fold_left next_eps upds 0.
End Act.

(** ** The error of Bellman's equation (build_graph.py:395-413) *)
Record row (Obs : Type) := Row { r_obs : Obs; r_act : Z; r_rew : R; r_next : Obs; r_done : R; r_weight : R }.
Arguments Row {Obs}. Arguments r_obs {Obs}. Arguments r_act {Obs}. Arguments r_rew {Obs}. Arguments r_next {Obs}. Arguments r_done {Obs}. Arguments r_weight {Obs}.
Section Bellman.
  Context {Obs : Type}.
  Variables (n : nat) (q target : Obs -> list R) (gamma : R) (double_q : bool).
  (** tf.reduce_sum(values * tf.one_hot(a, n_actions), axis=1) (397, 402). *)
  Definition select (values : list R) (a : Z) : R := rsum (map (fun vh => fst vh * snd vh) (combine values (one_hot a n))).
  (** q_tp1_best (399-404). *)
  Definition q_best (o : Obs) : option R :=
    if double_q then match argmax rlt (q o) with None => None | Some i => Some (select (target o) (Z.of_nat i)) end
    else match target o with [] => None | l => Some (rmax l) end.
  (** q_t_selected_target (405-408). *)
  Definition bellman (x : row Obs) : option R :=
    match q_best (r_next x) with None => None | Some b => Some (r_rew x + gamma * ((1 - r_done x) * b)) end.
  (** td_error (411). *)
  Definition td_error (x : row Obs) : option R :=
    match bellman x with None => None | Some t => Some (select (q (r_obs x)) (r_act x) - t) end.
End Bellman.
(** tf_util.huber_loss (tf_util.py:75-87). *)
Definition huber (delta x : R) : R := if Rlt_dec (Rabs x) delta then x * x * (5 / 10) else delta * (Rabs x - 5 / 10 * delta).
(** tf.reduce_mean of a non-empty tensor. *)
Definition rmean (l : list R) : R := rsum l / INR (List.length l).
(** weighted_error (412-413), with the default delta of 1. *)
Definition weighted_error (errs ws : list R) : R := rmean (map (fun we => fst we * huber 1 (snd we)) (combine ws errs)).

(** ** Copying the network to the target network (build_graph.py:421-426) *)
(** The variables of one scope: names and values, in the order of the collection. *)
Fixpoint insert_var {V} (x : string * V) (l : list (string * V)) : list (string * V) :=
  match l with [] => [x] | y :: t => if (fst x <=? fst y)%string then x :: l else y :: insert_var x t end.
(** sorted(..., key=lambda v: v.name). *)
Definition sort_vars {V} (l : list (string * V)) : list (string * V) := fold_right insert_var [] l.
(** var_target.assign(var) for the pairs of the two sorted lists. *)
Definition update_target {V} (vars targets : list (string * V)) : list (string * V) :=
  let new := combine (map fst (sort_vars targets)) (map snd (sort_vars vars)) in
  map (fun x => match find (fun y => (fst x =? fst y)%string) new with Some y => (fst x, snd y) | None => x end) targets.

(** ** PPO2 (ppo2.py:149-187, 263-264) *)
(** tf.clip_by_value. *)
Definition clip (x lo hi : R) : R := Rmax lo (Rmin x hi).
(** pg_losses, pg_losses2 and their maximum (179-183). *)
Definition ppo_ratio (old new : R) : R := exp (old - new).
Definition ppo_pg1 (adv old new c : R) : R := Rmax (- adv * ppo_ratio old new) (- adv * clip (ppo_ratio old new) (1 - c) (1 + c)).
(** vpred_clipped (151-173), no clipping for None; vf_losses1, vf_losses2 (175-177). *)
Definition ppo_vclip (v old : R) (cv : option R) : R := match cv with None => v | Some c => old + clip (v - old) (- c) c end.
Definition ppo_vf1 (v old ret : R) (cv : option R) : R := Rmax (sq (v - ret)) (sq (ppo_vclip v old cv - ret)).
(** What one row of a minibatch brings: advantage, return, old value, old and new negative log-likelihood, new
    value, entropy. *)
Record prow := Prow { p_adv : R; p_ret : R; p_oldv : R; p_old : R; p_new : R; p_v : R; p_ent : R }.
Definition ppo_pg (c : R) (l : list prow) : R := rmean (map (fun x => ppo_pg1 (p_adv x) (p_old x) (p_new x) c) l).
Definition ppo_vf (cv : option R) (l : list prow) : R := 5 / 10 * rmean (map (fun x => ppo_vf1 (p_v x) (p_oldv x) (p_ret x) cv) l).
Definition ppo_entropy (l : list prow) : R := rmean (map p_ent l).
Definition ppo_kl (l : list prow) : R := 5 / 10 * rmean (map (fun x => sq (p_new x - p_old x)) l).
Definition ppo_clipfrac (c : R) (l : list prow) : R := rmean (map (fun x => if Rlt_dec c (Rabs (ppo_ratio (p_old x) (p_new x) - 1)) then 1 else 0) l).
(** loss (187). *)
Definition ppo_loss (c : R) (cv : option R) (ent_coef vf_coef : R) (l : list prow) : R := ppo_pg c l - ppo_entropy l * ent_coef + ppo_vf cv l * vf_coef.
(** The advantages of a minibatch (263-264): numpy's mean and std. *)
Definition rstd (l : list R) : R := sqrt (rmean (map (fun x => sq (x - rmean l)) l)).
Definition advantages (returns values : list R) : list R :=
  let a := map (fun rv => fst rv - snd rv) (combine returns values) in
  map (fun x => (x - rmean a) / (rstd a + 1 / 100000000)) a.

(** ** A2C (a2c.py:155-162, 218) *)
Definition a2c_pg (l : list prow) : R := rmean (map (fun x => p_adv x * p_new x) l).
Definition a2c_vf (l : list prow) : R := rmean (map (fun x => sq (p_v x - p_ret x)) l).
Definition a2c_loss (ent_coef vf_coef : R) (l : list prow) : R := a2c_pg l - ppo_entropy l * ent_coef + a2c_vf l * vf_coef.

(** ** Clipping of gradients *)
Definition norm (g : list R) : R := sqrt (rsum (map sq g)).
(** tf.clip_by_global_norm (ppo2.py:203, a2c.py:172), all gradients in one list; tf.clip_by_norm
    (build_graph.py:433) for each variable. *)
Definition clip_norm (c : R) (g : list R) : list R := map (fun x => x * c / Rmax (norm g) c) g.
