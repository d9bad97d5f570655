(** The whole losses of PPO2 and A2C. *)
From Coq Require Import List Arith Lia ZArith Reals Lra.
From Verif Require Import PD_Model LS_Model LS_Spec LS_Proofs LS_Loss LS_Ppo.
Import ListNotations.
Open Scope R_scope.

(** A row whose entropy is f higher. *)
Definition more_ent (f : prow -> R) (x : prow) : prow := Prow (p_adv x) (p_ret x) (p_oldv x) (p_old x) (p_new x) (p_v x) (p_ent x + f x).
Lemma more_entropy : forall c cv e v f l,
  ppo_loss c cv e v (map (more_ent f) l) = ppo_loss c cv e v l - e * avg (map f l) /\
  a2c_loss e v (map (more_ent f) l) = a2c_loss e v l - e * avg (map f l).
Proof.
  intros c cv e v f l. unfold ppo_loss, a2c_loss.
  assert (E : ppo_entropy (map (more_ent f) l) = ppo_entropy l + avg (map f l)).
  { unfold ppo_entropy. rewrite map_map. cbn [more_ent p_ent]. rewrite rmean_plus. now rewrite (rmean_avg (map f l)). }
  assert (A : ppo_pg c (map (more_ent f) l) = ppo_pg c l) by (unfold ppo_pg; now rewrite map_map).
  assert (B : ppo_vf cv (map (more_ent f) l) = ppo_vf cv l) by (unfold ppo_vf; now rewrite map_map).
  assert (C : a2c_pg (map (more_ent f) l) = a2c_pg l) by (unfold a2c_pg; now rewrite map_map).
  assert (D : a2c_vf (map (more_ent f) l) = a2c_vf l) by (unfold a2c_vf; now rewrite map_map).
  rewrite E, A, B, C, D. split; ring.
Qed.
Lemma value_share : forall c e v l,
  ppo_loss c None e v l - ppo_loss c None e 0 l = v / 2 * avg (map (fun x => (p_v x - p_ret x) * (p_v x - p_ret x)) l) /\
  a2c_loss e v l - a2c_loss e 0 l = v * avg (map (fun x => (p_v x - p_ret x) * (p_v x - p_ret x)) l).
Proof.
  intros c e v l. unfold ppo_loss, a2c_loss. split.
  - assert (E : ppo_vf None l = 5 / 10 * avg (map (fun x => (p_v x - p_ret x) * (p_v x - p_ret x)) l)).
    { unfold ppo_vf. f_equal. refine (rmean_ext _ (fun x => (p_v x - p_ret x) * (p_v x - p_ret x)) l _). intros x _.  unfold ppo_vf1, ppo_vclip, sq. apply Rmax_left. lra. }
    rewrite E. lra.
  - unfold a2c_vf, sq. rewrite rmean_avg. lra.
Qed.
