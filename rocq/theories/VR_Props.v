(** C122: recording videos (see properties.jsonl). *)
From Coq Require Import List Arith Bool.
From Verif Require Import VR_Model VR_Spec VR_Proofs VR_Facts VR_Demo.
Import ListNotations.

(** C122: the environments go through the same states as without the recorder. *)
Theorem C122_transparent : forall {E A F} (reset : E -> E) (step : E -> A -> E) (render : E -> F) trigger L e l,
  env (run reset step render trigger L e l) = fold_left (apply reset step) l e.
Proof. exact @transparent. Qed.
Print Assumptions C122_transparent.

(** C122: after close, for every history of calls, the file named after step k holds the frames of the latest video that began after k steps; there is no file for other k. *)
Theorem C122_files : forall {E A F} (reset : E -> E) (step : E -> A -> E) (render : E -> F) trigger L e (l : list (call A)), exists ws, videos trigger L l ws /\ forall k fs,
  file (close (run reset step render trigger L e l)) k = Some fs <->
  exists t m, In (t, m) ws /\ steps l t = k /\ (forall t' m', In (t', m') ws -> steps l t' = k -> t' <= t) /\ fs = map (fun j => render (at_time reset step e l j)) (seq t (S m)).
Proof. exact @files_iff. Qed.
Print Assumptions C122_files.

(** C122: the conditions on videos leave no choice. *)
Theorem C122_unique : forall {A} trigger L (l : list (call A)) ws ws', videos trigger L l ws -> videos trigger L l ws' -> ws = ws'.
Proof. exact @unique. Qed.
Print Assumptions C122_unique.

(** C122: frame j of a video is after j further steps; with a positive video_length no video goes beyond the step in its name, and one that is not cut off by a reset or the end reaches it. *)
Theorem C122_names : forall {A} trigger L (l : list (call A)) ws, videos trigger L l ws -> forall t m, In (t, m) ws -> (forall j, j <= m -> steps l (t + j) = steps l t + j) /\
  (1 <= L -> m <= L) /\ (1 <= L -> nth_error l (t + m) <> Some Reset -> t + m < length l -> m = L).
Proof. exact @names. Qed.
Print Assumptions C122_names.

(** C122: a video that is replaced by a later one of the same name has one frame. *)
Theorem C122_replaced : forall {A} trigger L (l : list (call A)) ws, videos trigger L l ws -> forall t m t' m', In (t, m) ws -> In (t', m') ws -> t < t' -> steps l t = steps l t' -> m = 0.
Proof. exact @replaced. Qed.
Print Assumptions C122_replaced.

(** C122, finding: a video can be lost, in no file. *)
Theorem C122_lost_refuted : exists (l : list (call unit)) t m, In (t, m) [(1, 0); (2, 1)] /\ videos (fun _ => false) 5 l [(1, 0); (2, 1)] /\
  forall k fs, file (count_run (fun _ => false) 5 l) k = Some fs -> ~ In t fs.
Proof. exact first_lost. Qed.
Print Assumptions C122_lost_refuted.

(** C122, finding: a reset begins a video although the trigger never says so. *)
Theorem C122_trigger_refuted : forall {E A F} (reset : E -> E) (step : E -> A -> E) (render : E -> F) L e,
  file (close (run reset step render (fun _ => false) L e [Reset])) 0 = Some [render (reset e)].
Proof. exact @reset_always. Qed.
Print Assumptions C122_trigger_refuted.

(** C122, finding: of a trigger for every L-th step, with videos of L steps, every second is ignored: it falls on the last step of a video. *)
Theorem C122_every_refuted : forall {A} L (acts : list A) ws, 1 <= L -> videos (every L) L (Reset :: map Step acts) ws ->
  forall q, q * L <= length acts -> ((exists m, In (q * L + 1, m) ws) <-> Nat.even q = true).
Proof. exact @every_second. Qed.
Print Assumptions C122_every_refuted.

(** C122, finding: with video_length 0 a video has two frames, like one of length 1. *)
Theorem C122_zero_refuted : forall {E A F} (reset : E -> E) (step : E -> A -> E) (render : E -> F) trigger e a,
  file (close (run reset step render trigger 0 e [Reset; Step a])) 0 = Some [render (reset e); render (step (reset e) a)].
Proof. exact @zero_two. Qed.
Print Assumptions C122_zero_refuted.

(** C122, finding: a video cut off by a reset keeps the name of a whole one. *)
Theorem C122_cut_refuted : forall {E A F} (reset : E -> E) (step : E -> A -> E) (render : E -> F) trigger L e a, 1 < L ->
  file (close (run reset step render trigger L e [Reset; Step a; Reset])) 0 = Some [render (reset e); render (step (reset e) a)].
Proof. exact @cut_short. Qed.
Print Assumptions C122_cut_refuted.
