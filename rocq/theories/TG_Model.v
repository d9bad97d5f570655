(** Model of traj_segment_generator (neorl/rl/baselines/shared/runners.py). *)
From Coq Require Import List Arith QArith Bool.
Import ListNotations.
Open Scope nat_scope.

(** a[i] = x. *)
Definition set {X} (i : nat) (x : X) (l : list X) : list X := firstn i l ++ match skipn i l with [] => [] | _ :: r => x :: r end.

(** What is yielded (115-129, 164-178): the arrays as they are read before the generator is resumed. *)
Record segment (O A : Type) := Seg {
  s_obs : list O; s_rew : list Q; s_done : list bool; s_start : list bool; s_true : list Q; s_vpred : list Q; s_act : list A;
  s_next : Q; s_rets : list Q; s_lens : list nat; s_trues : list Q; s_total : nat; s_continue : bool }.
Arguments Seg {O A}. Arguments s_obs {O A}. Arguments s_rew {O A}. Arguments s_done {O A}. Arguments s_start {O A}. Arguments s_true {O A}. Arguments s_vpred {O A}.
Arguments s_act {O A}. Arguments s_next {O A}. Arguments s_rets {O A}. Arguments s_lens {O A}. Arguments s_trues {O A}. Arguments s_total {O A}. Arguments s_continue {O A}.

Section Generator.
  Context {S A O P : Type}.
  (** The environment: what a reset and a step do, the observation, the reward, the end, the return that a Monitor reports at the end of an episode. *)
  Variables (ereset : S -> S) (enext : S -> A -> S) (obs_of : S -> O) (rew : S -> A -> Q) (done_of : S -> A -> bool) (info_r : S -> A -> option Q).
  (** The n-th call of policy.step with an observation, and the state and the mask if they are given: action, value, state. *)
  Variable policy : nat -> O -> option (P * bool) -> A * Q * P.
  (** initial_state; np.clip for a Box; reward_giver.get_reward for gail; whether env is a VecEnv; whether the callback goes on after step n. *)
  Variables (p0 : P) (clip : A -> A) (giver : option (O -> A -> Q)) (is_vec : bool) (goes_on : nat -> bool) (horizon : nat).

  Record gen := Gen {
    g_s : S; g_o : O; g_p : P; g_done : bool; g_first : bool; g_calls : nat; g_step : nat;
    g_obs : list O; g_rew : list Q; g_dones : list bool; g_starts : list bool; g_true : list Q; g_vpred : list Q; g_act : list A;
    g_ret : Q; g_tret : Q; g_len : nat; g_it : nat; g_rets : list Q; g_lens : list nat; g_trues : list Q; g_a : A; g_v : Q }.

  (** The variables and arrays (84-108); [a0]: a sample of the action space. *)
  Definition start (s : S) (a0 : A) : gen :=
    let s := ereset s in let o := obs_of s in
    Gen s o p0 false true 0 0 (repeat o horizon) (repeat 0%Q horizon) (repeat false horizon) (repeat false horizon) (repeat 0%Q horizon) (repeat 0%Q horizon) (repeat a0 horizon)
      0 0 0 0 [] [] [] a0 0.
  (** The call of the policy (111). *)
  Definition ask (g : gen) : gen :=
    let '(a, v, p) := policy (g_calls g) (g_o g) (Some (g_p g, g_done g)) in
    Gen (g_s g) (g_o g) p (g_done g) (g_first g) (1 + g_calls g) (g_step g) (g_obs g) (g_rew g) (g_dones g) (g_starts g) (g_true g) (g_vpred g) (g_act g)
      (g_ret g) (g_tret g) (g_len g) (g_it g) (g_rets g) (g_lens g) (g_trues g) a v.
  (** After a segment (130-138): another call, of which only the value is kept; the lists of episodes are new ones. *)
  Definition ask_again (g : gen) : gen :=
    let '(_, v, _) := policy (g_calls g) (g_o g) None in
    Gen (g_s g) (g_o g) (g_p g) (g_done g) (g_first g) (1 + g_calls g) (g_step g) (g_obs g) (g_rew g) (g_dones g) (g_starts g) (g_true g) (g_vpred g) (g_act g)
      (g_ret g) (g_tret g) (g_len g) 0 [] [] [] (g_a g) v.
  Definition yielded (g : gen) (continue : bool) : segment O A :=
    Seg (g_obs g) (g_rew g) (g_dones g) (g_starts g) (g_true g) (g_vpred g) (g_act g) (if g_first g then 0%Q else g_v g) (g_rets g) (g_lens g) (g_trues g) (g_it g) continue.
  (** The step of the environment (140-180); false: the callback stops. *)
  Definition act (g : gen) : gen * bool :=
    let i := g_step g mod horizon in
    let o := g_o g in let a := clip (g_a g) in let s := g_s g in
    let s' := enext s a in let t := rew s a in let d := done_of s a in
    let r := match giver with Some f => f o a | None => t end in
    let obs := set i o (g_obs g) in let vp := set i (g_v g) (g_vpred g) in let ac := set i (g_a g) (g_act g) in let st := set i (g_first g) (g_starts g) in
    if goes_on (g_step g) then
      (* 182-209 *)
      let ret := (g_ret g + r)%Q in let tret := (g_tret g + t)%Q in let len := 1 + g_len g in
      let ret' := match giver, info_r s a with None, Some x => x | _, _ => ret end in
      let tret' := match info_r s a with Some x => x | None => tret end in
      let s2 := if d && negb is_vec then ereset s' else s' in
      (Gen s2 (obs_of s2) (g_p g) d d (g_calls g) (1 + g_step g) obs (set i r (g_rew g)) (set i d (g_dones g)) st (set i t (g_true g)) vp ac
        (if d then 0%Q else ret) (if d then 0%Q else tret) (if d then 0 else len) (1 + g_it g)
        (if d then g_rets g ++ [ret'] else g_rets g) (if d then g_lens g ++ [len] else g_lens g) (if d then g_trues g ++ [tret'] else g_trues g) (g_a g) (g_v g), true)
    else
      (Gen s' (obs_of s') (g_p g) d (g_first g) (g_calls g) (g_step g) obs (g_rew g) (g_dones g) st (g_true g) vp ac
        (g_ret g) (g_tret g) (g_len g) (g_it g) (g_rets g) (g_lens g) (g_trues g) (g_a g) (g_v g), false).
  (** The loop (110-209), [fuel] times: what is yielded. *)
  Fixpoint run (fuel : nat) (g : gen) : list (segment O A) :=
    match fuel with
    | 0 => []
    | Datatypes.S fuel' =>
        let g := ask g in
        let full := (0 <? g_step g) && (g_step g mod horizon =? 0) in
        let '(out, g) := if full then ([yielded g true], ask_again g) else ([], g) in
        match act g with
        | (g', true) => out ++ run fuel' g'
        | (g', false) => out ++ [yielded g' false]
        end
    end.
  (** The generator; without a callback on_rollout_start raises (108), and a horizon of 0 raises at the first step (139). *)
  Definition segments (callback : bool) (s : S) (a0 : A) (fuel : nat) : option (list (segment O A)) :=
    if callback && negb (horizon =? 0) then Some (run fuel (start s a0)) else None.
End Generator.
