(** Non-trivial cases: an environment that ends every episode after two steps. *)
From Coq Require Import List Arith ZArith QArith Bool Lia String.
From Verif Require Import Base Swarm_Model MO_Model MO_Spec MO_Proofs MO_Eval.
Import ListNotations.
Open Scope nat_scope.

(** State: steps since the last reset; rewards 1/3 and the action; info has key 7. *)
Definition d_reset (s : nat) (kw : key -> option nat) : nat := 0.
Definition d_next (s a : nat) : nat := 1 + s.
Definition d_rew (s a : nat) : Q := (inject_Z (Z.of_nat a) + (1 # 3))%Q.
Definition d_done (s a : nat) : bool := 1 <=? s.
Definition d_info (s a : nat) (k : key) : option nat := match k with KUser 7 => Some s | _ => None end.
Definition d_time (i : nat) : Q := inject_Z (Z.of_nat i).
Definition d_kw (k : key) : option nat := match k with KUser 5 => Some 55 | _ => None end.

Definition d_calls : list (call nat nat) := [CStep 1; CReset d_kw; CStep 2; CReset d_kw; CStep 1; CStep 3; CStep 4; CReset d_kw; CStep 5; CStep 6; CReset d_kw; CStep 1].
Definition d_run (early : bool) := session d_reset d_next (fun s => s) d_rew d_done d_info d_time early [KUser 5] [KUser 7] d_calls (new_mon 9).

(** With and without early resets: the fourth call is accepted or not; in both cases there are errors, finished
    episodes, and an episode going on at the end. *)
Example d_early : smooth (snd (d_run true)) /\ m_total (fst (d_run true)) = 6 /\ m_el (fst (d_run true)) = [2; 2] /\
  going false (snd (d_run true)) = true /\ List.length (m_rows (fst (d_run true))) = 2.
Proof. vm_compute. repeat split; auto. repeat (constructor; auto). Qed.
Example d_late : smooth (snd (d_run false)) /\ m_total (fst (d_run false)) = 5 /\ m_el (fst (d_run false)) = [2; 2] /\
  List.length (ongoing [] (snd (d_run false))) = 1 /\ List.length (filter is_error (snd (d_run false))) = 4.
Proof. vm_compute. repeat split; auto. repeat (constructor; auto). Qed.
Example d_row : nth_error (m_rows (fst (d_run true))) 0 =
  Some [(KR, Num (inject_Z 4666667 / 1000000)%Q); (KL, Count 2); (KT, Num (inject_Z 1000000 / 1000000)%Q); (KUser 7, Other 1); (KUser 5, Other 55)].
Proof. vm_compute. reflexivity. Qed.
(** A missing keyword; an info without the wanted key. *)
Example d_missing : (exists k, In k [KUser 5] /\ (fun _ : key => None : option nat) k = None) /\ m_needs (@new_mon nat nat 9) = true.
Proof. split; auto. exists (KUser 5). simpl; auto. Qed.
Definition d_lost := fst (session d_reset d_next (fun s => s) d_rew d_done d_info d_time true [] [KUser 8] [CReset d_kw; CStep 2] (new_mon 9)).
Example d_info_lost : m_needs d_lost = false /\ d_done (m_env d_lost) 1 = true /\ exists k, In k [KUser 8] /\ d_info (m_env d_lost) 1 k = None.
Proof. split; [reflexivity|]. split; [reflexivity|]. exists (KUser 8). split; [left; auto|reflexivity]. Qed.

(** Two logs with overlapping times. *)
Example d_load : option_map (map snd) (load_results [(10, [(1, 1%nat); (5, 2%nat)]); (8, [(4, 3%nat); (6, 4%nat)])])%Q = Some [1; 3; 4; 2].
Proof. vm_compute. reflexivity. Qed.
Example d_names : ends_with EXT "runs/0" = false /\ ends_with EXT "runs/1" = false /\ log_name false "runs/0" = "runs/0.monitor.csv"%string /\
  log_name true "runs" = "runs/monitor.csv"%string.
Proof. vm_compute. auto. Qed.

(** Two episodes evaluated. *)
Definition d_predict (q o : nat) (st : option nat) : nat * option nat := (q + match st with Some k => k | None => 0 end, Some (1 + o)).
Example d_eval : exists m mu l, evaluate (obj_reset d_reset (fun s => s) false []) (obj_step d_next (fun s => s) d_rew d_done d_info d_time []) d_predict 5 2 (Some 3%Q) (new_mon 9) 0
  = Done (m, 4, Some mu, l) /\ (mu == 14 # 3)%Q /\ map snd l = [2; 2].
Proof. do 3 eexists. vm_compute. split; [reflexivity|]. split; reflexivity. Qed.
Example d_eval_below : evaluate (obj_reset d_reset (fun s => s) false []) (obj_step d_next (fun s => s) d_rew d_done d_info d_time []) d_predict 5 2 (Some (14 # 3)%Q) (new_mon 9) 0 = Raise.
Proof. vm_compute. reflexivity. Qed.
Example d_vec : evaluate (obj_reset d_reset (fun s => s) false []) (vec_step d_reset d_next (fun s => s) d_rew d_done d_info d_time false [] []) d_predict 5 2 None (new_mon 9) 0 = Raise /\
  exists m mu l, evaluate (obj_reset d_reset (fun s => s) true []) (vec_step d_reset d_next (fun s => s) d_rew d_done d_info d_time true [] []) d_predict 5 2 None (new_mon 9) 0 = Done (m, 4, Some mu, l) /\ (mu == 14 # 3)%Q.
Proof. split; [vm_compute; reflexivity|]. do 3 eexists. vm_compute. split; reflexivity. Qed.
