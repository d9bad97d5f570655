(** Concrete cases that meet the hypotheses of C122, and the counterexamples. *)
From Coq Require Import List Arith Bool Lia.
From Verif Require Import VR_Model VR_Spec VR_Proofs VR_Facts.
Import ListNotations.

(** Environments that count calls; frames show the count. *)
Definition count_run (trigger : nat -> bool) (L : nat) (l : list (call unit)) : recorder := close (run S (fun e (_ : unit) => S e) (fun e => e) trigger L 0 l).
(** A reset, eight steps, a trigger for every second step, videos of two steps: steps 2 and 6 are not recorded as the first of a video. *)
Example demo_files : files (count_run (every 2) 2 (Reset :: map Step (repeat tt 8))) = [(8, [9]); (4, [5; 6; 7]); (0, [1; 2; 3])].
Proof. reflexivity. Qed.
Example demo_videos : videos (every 2) 2 (Reset :: map Step (repeat tt 8)) [(1, 2); (5, 2); (9, 0)].
Proof.
  destruct (all_videos S (fun e (_ : unit) => S e) (fun e => e) (every 2) 2 0 (Reset :: map Step (repeat tt 8))) as (ws & Hv & Hf).
  assert (E : ws = [(1, 2); (5, 2); (9, 0)]); [|rewrite <- E; exact Hv].
  assert (Hm : map (content S (fun e (_ : unit) => S e) (fun e => e) 0 (Reset :: map Step (repeat tt 8))) ws = [(0, [1; 2; 3]); (4, [5; 6; 7]); (8, [9])]).
  { rewrite <- (rev_involutive (map _ ws)), <- Hf. reflexivity. }
  pose proof (v_time _ _ _ _ Hv) as T. clear Hv Hf.
  destruct ws as [|w1 [|w2 [|w3 [|w4 ws]]]]; try discriminate. pose proof (f_equal (fun x => snd (nth 0 x (0, []))) Hm) as H1. pose proof (f_equal (fun x => snd (nth 1 x (0, []))) Hm) as H2. pose proof (f_equal (fun x => snd (nth 2 x (0, []))) Hm) as H3. cbn [map nth content snd] in H1, H2, H3.
  assert (C : forall w, In w [w1; w2; w3] -> forall f r, map (fun j => at_time S (fun e (_ : unit) => S e) 0 (Reset :: map Step (repeat tt 8)) j) (seq (fst w) (S (snd w))) = f :: r ->
    w = (f, length r)).
  { intros [t m] Hi f r H. pose proof (T t m Hi) as B. cbn [length map repeat] in B. cbn [fst snd] in H. pose proof (f_equal (@length nat) H) as HL. rewrite map_length, seq_length in HL. cbn [length] in HL. injection HL as ->.
    cbn [seq map] in H. injection H as H0 _. assert (t = 1 \/ t = 2 \/ t = 3 \/ t = 4 \/ t = 5 \/ t = 6 \/ t = 7 \/ t = 8 \/ t = 9) as Ht by lia.
    repeat (destruct Ht as [->|Ht]; [f_equal; exact H0|]). subst t. f_equal. exact H0. }
  f_equal; [|f_equal; [|f_equal]].
  - apply (C w1 ltac:(cbn; auto) 1 [2; 3]). exact H1.
  - apply (C w2 ltac:(cbn; auto) 5 [6; 7]). exact H2.
  - apply (C w3 ltac:(cbn; auto) 9 []). exact H3.
Qed.
(** Findings. *)
Lemma reset_always : forall {E A F} (reset : E -> E) (step : E -> A -> E) (render : E -> F) L e,
  file (close (run reset step render (fun _ => false) L e [Reset])) 0 = Some [render (reset e)].
Proof. reflexivity. Qed.
Lemma zero_two : forall {E A F} (reset : E -> E) (step : E -> A -> E) (render : E -> F) trigger e a,
  file (close (run reset step render trigger 0 e [Reset; Step a])) 0 = Some [render (reset e); render (step (reset e) a)].
Proof. reflexivity. Qed.
Lemma cut_short : forall {E A F} (reset : E -> E) (step : E -> A -> E) (render : E -> F) trigger L e a, 1 < L ->
  file (close (run reset step render trigger L e [Reset; Step a; Reset])) 0 = Some [render (reset e); render (step (reset e) a)].
Proof. intros E A F reset step render trigger L e a H. unfold run. cbn. destruct L as [|[|L]]; try lia. reflexivity. Qed.
Lemma first_lost : exists (l : list (call unit)) t m, In (t, m) [(1, 0); (2, 1)] /\ videos (fun _ => false) 5 l [(1, 0); (2, 1)] /\
  forall k fs, file (count_run (fun _ => false) 5 l) k = Some fs -> ~ In t fs.
Proof.
  exists [Reset; Reset; Step tt], 1, 0. split; [left; reflexivity|]. split.
  - constructor.
    + intros t m [H|[H|[]]]; injection H as <- <-; cbn; lia.
    + intros t m [H|[H|[]]]; injection H as <- <-; left; reflexivity.
    + intros t m j [H|[H|[]]]; injection H as <- <-; intros; [lia|]. assert (j = 3) as -> by lia. exists tt. reflexivity.
    + intros t m [H|[H|[]]]; injection H as <- <-; unfold full; cbn; lia.
    + intros t m [H|[H|[]]]; injection H as <- <-; right; [left; reflexivity|right; reflexivity].
    + constructor; [constructor; [cbn; lia|constructor]|constructor; constructor].
    + intros [|[|[|[|t]]]] H1 H; try lia; cbn in H; try discriminate; [exists 0; left; reflexivity|exists 1; right; left; reflexivity|]. destruct t; discriminate.
    + intros t a _ _ H. discriminate.
  - intros k fs H. unfold file in H. cbn in H. destruct k as [|k]; cbn in H; [|discriminate]. injection H as <-. cbn. intuition discriminate.
Qed.
