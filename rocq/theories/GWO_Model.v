(** neorl/evolu/gwo.py.  Conventions as in Swarm_Model.v. *)
From Coq Require Import List Arith ZArith QArith Qabs Bool.
From Verif Require Import Base Space_Model Opt_Model Pop_Model Swarm_Model.
Import ListNotations.
Open Scope nat_scope.

(** A leading wolf: position and score ([float("inf")] before any). *)
Definition wolf : Type := (list Q * ext)%type.
Record leaders : Type := Leaders { l_alpha : wolf; l_beta : wolf; l_delta : wolf }.

(** gwo.py:227-245: one pass of the loop body over a wolf at [x] with fitness [f]: three
    consecutive ifs, each reading the scores left by the previous ones. *)
Definition up_alpha (l : leaders) (x : list Q) (f : Q) : leaders :=
  if ext_ltb (Fin f) (snd (l_alpha l)) then Leaders (x, Fin f) (l_alpha l) (l_beta l) else l.
Definition up_beta (l : leaders) (x : list Q) (f : Q) : leaders :=
  if ext_ltb (snd (l_alpha l)) (Fin f) && ext_ltb (Fin f) (snd (l_beta l))
  then Leaders (l_alpha l) (x, Fin f) (l_beta l) else l.
Definition up_delta (l : leaders) (x : list Q) (f : Q) : leaders :=
  if ext_ltb (snd (l_alpha l)) (Fin f) && ext_ltb (snd (l_beta l)) (Fin f) && ext_ltb (Fin f) (snd (l_delta l))
  then Leaders (l_alpha l) (l_beta l) (x, Fin f) else l.
Definition up_leaders (l : leaders) (xf : list Q * Q) : leaders :=
  let l1 := up_alpha l (fst xf) (snd xf) in
  let l2 := up_beta l1 (fst xf) (snd xf) in
  up_delta l2 (fst xf) (snd xf).

(** Draws for one wolf: r1, r2 of the three leaders at each coordinate, and those of
    ensure_discrete. *)
Record gdraw : Type := GDraw { g_r1 : nat -> nat -> Q; g_r2 : nat -> nat -> Q; g_vd : vdraw }.

(** The pull of one leader, gwo.py:274-284. *)
Definition pull (a r1 r2 p x : Q) : Q :=
  let A := (2 * a * r1 - a)%Q in
  let C := (2 * r2)%Q in
  (p - A * Qabs (C * p - x))%Q.

(** gwo.py:265-313: one wolf. *)
Definition gwo_row (expf : Q -> Q) (ds : list dimn) (mt : imethod) (a alpha : Q) (l : leaders) (dr : nat -> gdraw) (i : nat) (x : list Q)
  : option (list Q) :=
  let d := dr i in
  let* v := coords (fun j _ xj =>
      let* pa := nth_error (fst (l_alpha l)) j in
      let* pb := nth_error (fst (l_beta l)) j in
      let* pd := nth_error (fst (l_delta l)) j in
      Some ((pull a (g_r1 d 0 j) (g_r2 d 0 j) pa xj + pull a (g_r1 d 1 j) (g_r2 d 1 j) pb xj
             + pull a (g_r1 d 2 j) (g_r2 d 2 j) pd xj) / 3)%Q) 0 ds x in
  settle expf alpha mt (g_vd d) ds v.

(** gwo.py:257-262. *)
Definition gwo_a (ngen l : nat) (ka : option (list Q)) : option Q :=
  match ka with
  | None => Some (2 - qnat l * (2 / qnat ngen))%Q
  | Some la => if length la =? ngen then nth_error la l else None
  end.

Record gwo_state : Type := GwoSt {
  gw_pos : list (list Q); gw_lead : leaders; gw_best : option (list Q * Q); gw_last : list (list Q * Q);
  gw_alpha : list ext; gw_beta : list ext; gw_delta : list ext; gw_hist : list Q; gw_log : list (list Q) }.

Section G.
Context (expf : Q -> Q) (m : mode) (fit : list Q -> Q) (ds : list dimn) (mt : imethod).

(** One generation, gwo.py:201-342: evaluate, rank, record, move. *)
Definition gwo_gen (ngen : nat) (ka : option (list Q)) (drs : nat -> nat -> gdraw) (l : nat) (st : gwo_state) : option gwo_state :=
  let pop := combine (gw_pos st) (map (pt_score m fit ds) (gw_pos st)) in
  let ld := fold_left up_leaders pop (gw_lead st) in
  let best := track (gw_best st) pop in
  let* a := gwo_a ngen l ka in
  let* pos := traverse (gwo_row expf ds mt a (anneal1 l ngen) ld (drs l)) 0 (gw_pos st) in
  let* '(_, bf) := best in
  Some (GwoSt pos ld best pop (gw_alpha st ++ [snd (l_alpha ld)]) (gw_beta st ++ [snd (l_beta ld)]) (gw_delta st ++ [snd (l_delta ld)])
          (gw_hist st ++ [as_min m bf]) (gw_log st ++ map (pt_arg ds) (gw_pos st))).

(** Sign of a reported score; the infinite one stands for inf ('min') or -inf ('max'). *)
Definition as_min_ext (e : ext) : ext := match e with Fin q => Fin (as_min m q) | PInf => PInf end.

Record gwo_result : Type := GwoRes {
  gr_x : list Q; gr_y : Q; gr_alpha : list ext; gr_beta : list ext; gr_delta : list ext; gr_hist : list Q;
  gr_pop : list (list Q); gr_pf : list Q; gr_log : list (list Q) }.

(** GWO.evolute, gwo.py:159-368; the leaders start at the zero vector with infinite score. *)
Definition gwo_start (init : list (list Q)) : gwo_state :=
  let w := (repeat 0%Q (length ds), PInf) in
  GwoSt init (Leaders w w w) None [] [] [] [] [] [].
Definition gwo_evolute (ngen : nat) (ka : option (list Q)) (drs : nat -> nat -> gdraw) (init : list (list Q)) : option gwo_result :=
  let* st := gens (gwo_gen ngen ka drs) 0 ngen (gwo_start init) in
  let* '(bx, bf) := gw_best st in
  Some (GwoRes bx (as_min m bf) (map as_min_ext (gw_alpha st)) (map as_min_ext (gw_beta st)) (map as_min_ext (gw_delta st)) (gw_hist st)
          (map fst (gw_last st)) (map (fun p => as_min m (snd p)) (gw_last st)) (gw_log st)).
End G.
