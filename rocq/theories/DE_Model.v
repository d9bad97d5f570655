(** Model of Differential Evolution: neorl/evolu/de.py (class DE).

    Individuals are position vectors in the encoded numeric space; decoding of grid variables
    (de.py:167-169) is part of the arbitrary fitness function.  RL-informed mode (de.py:204-213,
    326-327) is modelled in RLI_Model.v.  The user's x0 lists are assumed not to share list objects. *)
From Coq Require Import List Arith ZArith QArith Bool.
From Verif Require Import Base Space_Model Opt_Model.
Import ListNotations.
Open Scope nat_scope.

(** Parameters (de.py:41-99). *)
Record de_par : Type := DePar {
  de_dims : list dimn; de_npop : nat; de_F : Q; de_CR : Q; de_method : imethod }.

(** Draws for one individual: the three donor draws, one uniform draw per coordinate, and the
    draws of the two calls of ensure_discrete. *)
Record de_draw : Type := DeDraw {
  dd_1 : nat; dd_2 : nat; dd_3 : nat; dd_cr : nat -> Q;
  dd_tr : nat -> Q; dd_tp : nat -> nat; dd_vr : nat -> Q; dd_vp : nat -> nat }.

(** de.py:257-258: the bounds of every variable. *)
Definition de_bounds (p : de_par) : list (Q * Q) := map (fun d => (d_lo d, d_hi d)) (de_dims p).

(** de.py:277-284, recombination: coordinate by coordinate the donor's or the target's. *)
Fixpoint recombine (CR : Q) (cr : nat -> Q) (k : nat) (donor target : list Q) : option (list Q) :=
  match target with
  | [] => Some []
  | x :: t =>
      match donor with
      | [] => if Qle_bool (cr k) CR then None   (* IndexError *)
              else let* r := recombine CR cr (S k) [] t in Some (x :: r)
      | v :: d => let* r := recombine CR cr (S k) d t in
                  Some ((if Qle_bool (cr k) CR then v else x) :: r)
      end
  end.

Section DE.
Context (expf : Q -> Q) (m : mode) (fit : list Q -> Q) (p : de_par) (ngen : nat).

(** de.py:250-291, one individual [j]: the population (the target is discretised in place, so
    later individuals of the same generation see it) and the trial vector. *)
Definition de_one (pop : list (list Q)) (jd : nat * de_draw) : option (list (list Q) * list Q) :=
  let '(j, dr) := jd in
  let b := (1 - inject_Z (Z.of_nat j) * (1 / inject_Z (Z.of_nat ngen)))%Q in
  let candidates := filter (fun i => negb (i =? j)) (seq 0 (de_npop p)) in
  let* idx := sample candidates [dd_1 dr; dd_2 dr; dd_3 dr] in
  match idx with
  | [i1; i2; i3] =>
      let* x1 := nth_error pop i1 in
      let* x2 := nth_error pop i2 in
      let* x3 := nth_error pop i3 in
      let* xt := nth_error pop j in
      let diff := map2 (fun a c => a - c)%Q x2 x3 in
      let donor := clip_vec (de_bounds p) (map2 (fun a c => a + de_F p * c)%Q x1 diff) in
      let* trial := recombine (de_CR p) (dd_cr dr) 0 donor xt in
      let* xt' := ensure_discrete expf b (de_method p) (dd_tr dr) (dd_tp dr) (de_dims p) xt in
      let* trial' := ensure_discrete expf b (de_method p) (dd_vr dr) (dd_vp dr) (de_dims p) trial in
      Some (set_nth pop j xt', trial')
  | _ => None
  end.

(** de.py:160-174 fit_worker: the point passed to the user's function, and the internal
    (maximised) score. *)
Definition de_arg (x : list Q) : list Q := clip_vec (de_bounds p) x.
Definition de_score (x : list Q) : Q := as_max m (fit (de_arg x)).

(** Population, best of the last generation, best score of each generation, scores of the last
    generation, (ghost) points on which the fitness was evaluated. *)
Record de_state : Type := DeSt {
  ds_pop : list (list Q); ds_best : option (list Q * Q); ds_hist : list Q;
  ds_scores : list Q; ds_seen : list (list Q) }.

(** de.py:238-326, one generation. *)
Definition de_gen (drs : nat -> de_draw) (st : de_state) : option de_state :=
  let* '(targets, trials) :=
    iter_steps de_one (ds_pop st) (map (fun j => (j, drs j)) (seq 0 (de_npop p))) in
  let pop' := map2 (fun t v => if Qltb (de_score t) (de_score v) then v else t) targets trials in
  let scores := map2 (fun t v => if Qltb (de_score t) (de_score v) then de_score v else de_score t) targets trials in
  let* '(k, y) := argmax scores in
  let* x := nth_error pop' k in
  Some (DeSt pop' (Some (x, y)) (ds_hist st ++ [y]) scores
          (ds_seen st ++ map de_arg trials ++ map de_arg targets)).

Fixpoint de_gens (drs : nat -> nat -> de_draw) (g todo : nat) (st : de_state) : option de_state :=
  match todo with
  | O => Some st
  | S t => let* st' := de_gen (drs g) st in de_gens drs (S g) t st'
  end.

(** de.py:216-378 evolute: returned individual, value, histories, last population with its
    scores (max mode sign). With ngen = 0 the returned names are unbound. *)
Record de_result : Type := DeRes {
  dr_x : list Q; dr_y : Q; dr_local : list Q; dr_global : list Q;
  dr_pop : list (list Q); dr_fits : list Q; dr_seen : list (list Q) }.

Definition de_evolute (drs : nat -> nat -> de_draw) (init : list (list Q)) : option de_result :=
  let* st := de_gens drs 0 ngen (DeSt init None [] [] []) in
  let* '(x, y) := ds_best st in
  let hist := map (as_max m) (ds_hist st) in
  Some (DeRes x (as_max m y) hist
          (accumulate (match m with Mmin => qmin2 | Mmax => qmax2 end) hist)
          (ds_pop st) (map (as_max m) (ds_scores st)) (ds_seen st)).
End DE.
