(** neorl/evolu/cs.py.  The Levy step of a coordinate ([u / abs(v) ** (1 / beta)], cs.py:203-205)
    and every other draw are arbitrary rationals; joblib keeps the order of the nests. *)
From Coq Require Import List Arith ZArith QArith Bool.
From Verif Require Import Base Space_Model Opt_Model Pop_Model Swarm_Model.
Import ListNotations.
Open Scope nat_scope.

(** Draws of one nest in UpdateCuckoos: Levy step and normal deviate of each coordinate, draws of
    ensure_discrete. *)
Record cdraw : Type := CDraw { cd_step : nat -> Q; cd_norm : nat -> Q; cd_vd : vdraw }.

(** cs.py:200-209: one nest of UpdateCuckoos.  The clipped vector is stored first and then
    overwritten by ensure_discrete of the vector that was NOT clipped. *)
Definition cs_fly (expf : Q -> Q) (alpha : Q) (mt : imethod) (ds : list dimn) (best : list Q) (dr : nat -> cdraw)
    (j : nat) (x : list Q) : option (list Q) :=
  let d := dr j in
  let* s := coords (fun i _ xi => let* bi := nth_error best i in
                       Some (xi + (1 # 100) * (cd_step d i * (xi - bi)) * cd_norm d i)%Q) 0 ds x in
  ensure_discrete expf alpha mt (vd_rand (cd_vd d)) (vd_pick (cd_vd d)) ds s.

(** Draws of the abandonment step: the factor, the two permutations of the rows (used only as
    row numbers, reduced modulo the number of rows), the uniform matrix. *)
Record adraw : Type := ADraw { ad_r : Q; ad_p1 : nat -> nat; ad_p2 : nat -> nat; ad_u : nat -> nat -> Q; ad_vd : nat -> vdraw }.

(** cs.py:262-272: one row of [newnest + stepsize * K], clipped and discretised. *)
Definition cs_abandon (expf : Q -> Q) (alpha pa : Q) (mt : imethod) (ds : list dimn) (nests : list (list Q)) (d : adraw)
    (i : nat) (x : list Q) : option (list Q) :=
  let* a := nth_error nests (ad_p1 d i mod length nests) in
  let* b := nth_error nests (ad_p2 d i mod length nests) in
  let* v := coords (fun j _ xj => let* aj := nth_error a j in let* bj := nth_error b j in
                       Some (xj + ad_r d * (aj - bj) * (if Qltb pa (ad_u d i j) then 1 else 0))%Q) 0 ds x in
  settle expf alpha mt (ad_vd d i) ds v.

(** cs.py:252-257 and 278-283: keep the new nest when it is at least as good ([<=]). *)
Definition cs_greedy (old new : list (list Q * Q)) : list (list Q * Q) :=
  map2 (fun o w => if Qle_bool (snd w) (snd o) then w else o) old new.

Record cs_state : Type := CsSt {
  cs_pop : list (list Q * Q); cs_best : list Q * Q; cs_local : list Q; cs_global : list Q; cs_log : list (list Q) }.

Section C.
Context (expf : Q -> Q) (m : mode) (fit : list Q -> Q) (ds : list dimn) (mt : imethod) (pa : Q).

Definition scored (pos : list (list Q)) : list (list Q * Q) := combine pos (map (pt_score m fit ds) pos).

(** One generation, cs.py:238-304. *)
Definition cs_gen (ngen : nat) (fly : nat -> nat -> cdraw) (drop : nat -> adraw) (l : nat) (st : cs_state) : option cs_state :=
  let alpha := anneal1 (l - 1) ngen in
  let* nests := traverse (cs_fly expf alpha mt ds (fst (cs_best st)) (fly l)) 0 (map fst (cs_pop st)) in
  let pop1 := cs_greedy (cs_pop st) (scored nests) in
  let* nests2 := traverse (cs_abandon expf alpha pa mt ds nests (drop l)) 0 nests in
  let pop2 := cs_greedy pop1 (scored nests2) in
  let* best := track (Some (cs_best st)) pop2 in
  let* '(_, lo) := argmin (map snd pop2) in
  Some (CsSt pop2 best (cs_local st ++ [as_min m lo]) (cs_global st ++ [as_min m (snd best)])
          (cs_log st ++ map (pt_arg ds) nests ++ map (pt_arg ds) nests2)).

(** CS.evolute, cs.py:213-344 (ngen = 0: the returned attribute is unset). *)
Definition cs_evolute (ngen : nat) (fly : nat -> nat -> cdraw) (drop : nat -> adraw) (init : list (list Q)) : option pop_result :=
  let* '(i, f) := argmin (map (pt_score m fit ds) init) in
  let* x := nth_error init i in
  if ngen =? 0 then None else
  let* st := gens (cs_gen ngen fly drop) 1 ngen (CsSt (scored init) (x, f) [] [] (map (pt_arg ds) init)) in
  Some (PopRes (fst (cs_best st)) (as_min m (snd (cs_best st))) (cs_local st) (cs_global st)
          (map fst (cs_pop st)) (map (fun xf => as_min m (snd xf)) (cs_pop st)) (cs_log st)).
End C.
