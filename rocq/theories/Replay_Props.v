(** Properties C04-C07: replay buffers. *)
From Coq Require Import List Arith ZArith QArith Bool Lia Lqa Permutation.
From Verif Require Import Base SegTree_Model SegTree_Spec Replay_Model Replay_Spec Replay_Proofs Replay_Facts.
Import ListNotations.
Open Scope nat_scope.

(** C04: a ring buffer holds exactly the most recent min(n, size) transitions. *)
Theorem C04_fifo :
  forall Obs Act (s : nat) (h : list (@call Obs Act)), 1 <= s ->
  exists b, ofold exec (new_buffer s) h = Some b /\
    let all := flat_map given h in
    let n := length all in
    length (storage b) = Nat.min n s /\
    Permutation (storage b) (last_n (Nat.min n s) all) /\
    (forall t, n - Nat.min n s <= t < n -> nth_error (storage b) (t mod s) = nth_error all t) /\
    (is_full b = true <-> s <= n) /\
    (forall k, can_sample b k = true <-> k <= Nat.min n s).
Proof. exact @replay_fifo. Qed.
Print Assumptions C04_fifo.

(** C04: row [i] of a batch is made of the i-th entries of the five columns. *)
Theorem C04_batch_rows : forall Obs Act (os : list Obs) (acts : list Act) rs (os' : list Obs) ds i,
  nth_error (zip5 os acts rs os' ds) i =
  match nth_error os i, nth_error acts i, nth_error rs i, nth_error os' i, nth_error ds i with
  | Some o, Some a, Some r, Some o', Some d => Some (o, a, r, o', d)
  | _, _, _, _, _ => None
  end.
Proof. exact @zip5_nth. Qed.
Print Assumptions C04_batch_rows.

(** C04: every sampled row is one of those transitions, with its five fields
    still belonging together. *)
Theorem C04_sample_rows :
  forall Obs Act (s : nat) (h : list (@call Obs Act)) b draws, 1 <= s ->
  ofold exec (new_buffer s) h = Some b ->
  (forall i, In i draws -> i < length (storage b)) ->
  exists os acts rs os' ds, sample b draws = Some (os, acts, rs, os', ds) /\
    let rows := zip5 os acts rs os' ds in
    length rows = length draws /\ length os = length draws /\ length acts = length draws /\
    length rs = length draws /\ length os' = length draws /\ length ds = length draws /\
    (forall j i, nth_error draws j = Some i -> nth_error rows j = nth_error (storage b) i) /\
    (forall d, In d rows -> In d (last_n (Nat.min (length (flat_map given h)) s) (flat_map given h))).
Proof. exact @replay_sample. Qed.
Print Assumptions C04_sample_rows.

Example C04_example :
  let h := [Add 1 10 0%Q 2 false; Extend [2;3;4] [20;30;40] [1%Q;2%Q;3%Q] [3;4;5] [false;false;true];
            Add 7 70 4%Q 8 true] in
  match ofold exec (new_buffer 3) h with
  | Some b => storage b = [(4,40,3%Q,5,true); (7,70,4%Q,8,true); (3,30,2%Q,4,false)] /\
              sample b [1;0] = Some ([7;4],[70;40],[4%Q;3%Q],[8;5],[true;true])
  | None => False
  end.
Proof. vm_compute. split; reflexivity. Qed.

(** C05: priorities follow the call history ([pw x] is [x ** alpha]). *)
Theorem C05_priorities :
  forall Obs Act (pw : Q -> Q), (forall x, (0 < x)%Q -> (0 < pw x)%Q) ->
  forall (size : nat) (h : list (@pcall Obs Act)) fuel,
  1 <= size -> 2 * size <= fuel -> contract size 0 h ->
  exists p0 p, new_per size = Some p0 /\ pexecs pw fuel p0 h = Done p /\
    let prio := array_after (fun _ => 0%Q) (prio_writes pw size 0 1 h) in
    let all := flat_map pgiven h in
    let len := Nat.min (length all) size in
    length (storage (base p)) = len /\
    Permutation (storage (base p)) (last_n len all) /\
    max_priority p = max_prio 1 h /\
    (forall i, i < len -> getitem (it_sum p) i = Done (prio i) /\
                          getitem (it_min p) i = Done (Fin (prio i)) /\ (0 < prio i)%Q) /\
    (forall i, len <= i < size -> getitem (it_sum p) i = Done 0%Q /\
                                  getitem (it_min p) i = Done PInf).
Proof. exact @per_priorities. Qed.
Print Assumptions C05_priorities.

(** C05 for batches as long as the buffer (or a multiple) is false: the
    transitions are stored but no priority is written. *)
Theorem C05_long_batch_refuted :
  forall Obs Act (pw : Q -> Q), (forall x, (0 < x)%Q -> (0 < pw x)%Q) ->
  forall (size : nat) (h : list (@pcall Obs Act)) rows fuel p0 p,
  1 <= size -> 2 * size <= fuel -> contract size 0 h ->
  new_per size = Some p0 -> pexecs pw fuel p0 h = Done p ->
  length rows mod size = 0 ->
  exists b, per_extend pw fuel p rows = Done (mkPer b (it_sum p) (it_min p) (max_priority p)) /\
    Permutation (storage b) (last_n (Nat.min (length (flat_map pgiven h ++ rows)) size)
                                    (flat_map pgiven h ++ rows)).
Proof. exact @per_extend_full. Qed.
Print Assumptions C05_long_batch_refuted.

Definition demo_t (n : nat) : transition nat nat := (n, n, 0%Q, S n, false).
Definition demo_h : list (@pcall nat nat) :=
  [PAdd (demo_t 0); PExtend [demo_t 1; demo_t 2]; PUpdate [2;0] [5%Q; 1#2]; PAdd (demo_t 3)].
Example C05_example : contract 3 0 demo_h /\
  prio_writes (fun x => x) 3 0 1 demo_h = [(0,1%Q);(1,1%Q);(2,1%Q);(2,5%Q);(0,1#2);(0,5%Q)] /\
  (forall x, (0 < x)%Q -> (0 < (fun x => x) x)%Q).
Proof.
  split; [|split; [reflexivity|auto]].
  simpl. repeat split; try lia; try discriminate.
  - intros p [<-|[<-|[]]]; reflexivity.
Qed.
(** A fresh buffer of size 2 given a batch of two: stored, all priorities 0. *)
Example C05_long_batch_example :
  match new_per (Obs:=nat) (Act:=nat) 2 with
  | Some p0 => match per_extend (fun x => x) 4 p0 [demo_t 0; demo_t 1] with
               | Done p => storage (base p) = [demo_t 0; demo_t 1] /\
                           getitem (it_sum p) 0 = Done 0%Q /\ getitem (it_sum p) 1 = Done 0%Q
               | _ => False end
  | None => False end.
Proof. vm_compute. repeat split; reflexivity. Qed.

(** C06: the index drawn from [u] is the slot whose share of the cumulated
    priorities contains [u * T], where [T] leaves the last slot out. *)
Theorem C06_proportional :
  forall Obs Act (pw : Q -> Q), (forall x, (0 < x)%Q -> (0 < pw x)%Q) ->
  forall (size : nat) (h : list (@pcall Obs Act)) fuel p0 p us,
  1 <= size -> 2 * size <= fuel -> contract size 0 h ->
  new_per size = Some p0 -> pexecs pw fuel p0 h = Done p ->
  let prio := array_after (fun _ => 0%Q) (prio_writes pw size 0 1 h) in
  let len := length (storage (base p)) in
  2 <= len -> us <> [] -> (forall u, In u us -> (0 <= u < 1)%Q) ->
  exists is, sample_proportional fuel p us = Done is /\
    Forall2 (fun u i => i < len - 1 /\
      (prefix_sum prio i <= u * prefix_sum prio (len - 1))%Q /\
      (u * prefix_sum prio (len - 1) < prefix_sum prio (S i))%Q) us is.
Proof. exact @sample_prop. Qed.
Print Assumptions C06_proportional.

(** C06, the half that holds: every stored slot but the last can be drawn. *)
Theorem C06_reachable_all_but_last :
  forall Obs Act (pw : Q -> Q), (forall x, (0 < x)%Q -> (0 < pw x)%Q) ->
  forall (size : nat) (h : list (@pcall Obs Act)) fuel p0 p i,
  1 <= size -> 2 * size <= fuel -> contract size 0 h ->
  new_per size = Some p0 -> pexecs pw fuel p0 h = Done p ->
  i < length (storage (base p)) - 1 ->
  exists u, (0 <= u < 1)%Q /\ sample_proportional fuel p [u] = Done [i].
Proof. exact @sample_prop_reach. Qed.
Print Assumptions C06_reachable_all_but_last.

(** The other half is false: the last slot is never drawn, and with a single
    stored transition sampling does not return. *)
Theorem C06_last_slot_refuted :
  forall Obs Act (pw : Q -> Q), (forall x, (0 < x)%Q -> (0 < pw x)%Q) ->
  forall (size : nat) (h : list (@pcall Obs Act)) fuel p0 p us is,
  1 <= size -> 2 * size <= fuel -> contract size 0 h ->
  new_per size = Some p0 -> pexecs pw fuel p0 h = Done p ->
  2 <= length (storage (base p)) -> us <> [] -> (forall u, In u us -> (0 <= u < 1)%Q) ->
  sample_proportional fuel p us = Done is -> ~ In (length (storage (base p)) - 1) is.
Proof. exact @sample_never_last. Qed.
Print Assumptions C06_last_slot_refuted.

Theorem C06_single_refuted : forall Obs Act fuel (p : per Obs Act) us,
  0 < cap (it_sum p) -> length (storage (base p)) = 1 -> sample_proportional fuel p us = Fuel.
Proof. exact @sample_single. Qed.
Print Assumptions C06_single_refuted.

Example C06_example :
  match new_per (Obs:=nat) (Act:=nat) 3 with
  | Some p0 => match pexecs (fun x => x) 6 p0 demo_h with
               | Done p => length (storage (base p)) = 3 /\
                           sample_proportional 6 p [0%Q; 4#5; 9#10; 99#100] = Done [0;0;1;1]
               | _ => False end
  | None => False end.
Proof. vm_compute. split; reflexivity. Qed.

(** C07 ([pneg x] is [x ** (-beta)]). *)
Theorem C07_weights :
  forall Obs Act (pw : Q -> Q), (forall x, (0 < x)%Q -> (0 < pw x)%Q) ->
  forall (pneg : Q -> Q), (forall x, (0 < x)%Q -> (0 < pneg x)%Q) ->
  (forall x y, (0 < x)%Q -> (x <= y)%Q -> (pneg y <= pneg x)%Q) ->
  forall (size : nat) (h : list (@pcall Obs Act)) fuel p0 p beta us,
  1 <= size -> 2 * size <= fuel -> contract size 0 h ->
  new_per size = Some p0 -> pexecs pw fuel p0 h = Done p ->
  let prio := array_after (fun _ => 0%Q) (prio_writes pw size 0 1 h) in
  let len := length (storage (base p)) in
  2 <= len -> (0 < beta)%Q -> us <> [] -> (forall u, In u us -> (0 <= u < 1)%Q) ->
  exists os acts rs os' ds ws is,
    per_sample fuel pneg beta p us = Done (os, acts, rs, os', ds, ws, is) /\
    Forall2 (fun i row => nth_error (storage (base p)) i = Some row) is (zip5 os acts rs os' ds) /\
    length is = length us /\ (forall i, In i is -> i < len - 1) /\
    Forall2 (fun i w => (0 < w <= 1)%Q /\
      ((forall j, j < len -> (prio i <= prio j)%Q) -> (w == 1)%Q)) is ws.
Proof. exact @per_sample_spec. Qed.
Print Assumptions C07_weights.

(** The case alpha = 1, beta = 1 on the history above. *)
Example C07_example : (forall x, (0 < x)%Q -> (0 < / x)%Q) /\
  (forall x y, (0 < x)%Q -> (x <= y)%Q -> (/ y <= / x)%Q) /\
  match new_per (Obs:=nat) (Act:=nat) 3 with
  | Some p0 => match pexecs (fun x => x) 6 p0 demo_h with
               | Done p => match per_sample 6 Qinv 1 p [0%Q; 9#10] with
                           | Done (_, ws, is) => is = [0;1] /\ Forall2 Qeq ws [1#5; 1%Q]
                           | _ => False end
               | _ => False end
  | None => False end.
Proof.
  split; [exact Qinv_lt_0_compat|]. split.
  - intros x y Hx Hxy. rewrite <- (Qmult_1_l (/ y)). apply Qle_shift_div_r; [lra|].
    rewrite <- (Qmult_inv_r x) by lra. rewrite (Qmult_comm x).
    apply Qmult_le_l; [now apply Qinv_lt_0_compat|auto].
  - vm_compute. split; [reflexivity|]. repeat constructor.
Qed.
