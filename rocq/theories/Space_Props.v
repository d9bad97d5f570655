(** Property theorems C13 (grid encoding), C14 (continuous to discrete), C15 (bound repair). *)
From Coq Require Import String List Arith ZArith QArith Bool Lia Lqa.
From Verif Require Import Base BaseFacts Space_Model Space_Spec Space_Proofs Space_Facts.
Import ListNotations.
Open Scope nat_scope.

(** C13: encoding the space replaces each grid of n choices by the integers 0..n-1 and
    touches nothing else. *)
Theorem C13_encoded_space b :
  Forall2 (fun kp kp' => fst kp' = fst kp /\
    match snd kp with
    | PGrid cs => exists hi, snd kp' = PInt 0 hi /\ (hi == inject_Z (Z.of_nat (length cs)) - 1)%Q
    | p => snd kp' = p
    end) b (fst (encode_grid_to_discrete b)).
Proof. exact (encoded_shape b). Qed.
Print Assumptions C13_encoded_space.

(** C13: encode then decode is the identity on admissible individuals. *)
Theorem C13_encode_decode b x : dict b -> grids_no_repeats b -> valid b x ->
  exists e, encode_grid_indv_to_discrete x b (snd (encode_grid_to_discrete b)) = Some e /\
    valid (fst (encode_grid_to_discrete b)) e /\
    exists x', decode_discrete_to_grid e b (snd (encode_grid_to_discrete b)) = Some x' /\ Forall2 same x' x.
Proof. exact (encode_decode b x). Qed.
Print Assumptions C13_encode_decode.

(** C13: decoding any point of the encoded space gives an admissible individual whose
    non-grid coordinates are untouched and whose grid coordinates are the user's choices;
    encoding it again is the identity. *)
Theorem C13_decode_encode b e : dict b -> valid (fst (encode_grid_to_discrete b)) e ->
  exists x, decode_discrete_to_grid e b (snd (encode_grid_to_discrete b)) = Some x /\ valid b x /\
    (forall i k p w, nth_error b i = Some (k, p) -> nth_error e i = Some w ->
       exists v, nth_error x i = Some v /\
         ((forall cs, p <> PGrid cs) -> v = w) /\
         (forall cs, p = PGrid cs -> exists n, same w (VNum (inject_Z (Z.of_nat n))) /\ nth_error cs n = Some v)) /\
    (grids_no_repeats b -> exists e',
       encode_grid_indv_to_discrete x b (snd (encode_grid_to_discrete b)) = Some e' /\ Forall2 same e' e).
Proof. exact (decode_encode b e). Qed.
Print Assumptions C13_decode_encode.

(** C13: the validation of x0 accepts exactly the admissible individuals (extra trailing
    coordinates are not looked at). *)
Theorem C13_validation x b : check_mixed_individual x b = true <-> valid b (firstn (length b) x).
Proof. exact (check_spec b x). Qed.
Print Assumptions C13_validation.

(** C13: with a repeated choice, an individual using it passes the validation but cannot
    be encoded. *)
Theorem C13_repeated_choice_fails b x i k cs v n1 n2 c1 c2 : dict b -> valid b x ->
  nth_error b i = Some (k, PGrid cs) -> nth_error x i = Some v ->
  n1 <> n2 -> nth_error cs n1 = Some c1 -> nth_error cs n2 = Some c2 -> same c1 v -> same c2 v ->
  check_mixed_individual x b = true /\
  encode_grid_indv_to_discrete x b (snd (encode_grid_to_discrete b)) = None.
Proof. exact (repeated_choice b x i k cs v n1 n2 c1 c2). Qed.
Print Assumptions C13_repeated_choice_fails.

(** The space of neorl/evolu/discrete.py:97-101 and the individual of line 153. *)
Definition demo_space : space :=
  [("cxpb"%string, PFloat (1#10) (9#10)); ("mu"%string, PInt 30 60);
   ("alpha"%string, PGrid [VNum (1#10); VNum (2#10); VNum (3#10); VNum (4#10)]);
   ("cxmode"%string, PGrid [VStr "blend"; VStr "cx2point"])].
Example C13_demo_dict : dict demo_space.
Proof. unfold dict, demo_space; simpl. repeat constructor; simpl; intuition discriminate. Qed.
Example C13_demo_norep : grids_no_repeats demo_space.
Proof.
  intros k cs H. simpl in H.
  destruct H as [H|[H|[H|[H|[]]]]]; inversion H; subst; intros i j a b Hi Hj S;
  repeat (destruct i as [|i]; simpl in Hi; try discriminate); repeat (destruct j as [|j]; simpl in Hj; try discriminate);
  inversion Hi; inversion Hj; subst; simpl in S; auto; try (exfalso; revert S; unfold Qeq; simpl; congruence); congruence.
Qed.
Example C13_demo_valid : valid demo_space [VNum (1#5); VNum 40; VNum (3#10); VStr "cx2point"].
Proof.
  repeat constructor; simpl.
  - eexists; split; [reflexivity|]. split; unfold Qle; simpl; lia.
  - eexists; split; [reflexivity|]. split; [exists 40%Z; reflexivity|]. split; unfold Qle; simpl; lia.
  - exists (VNum (3#10)). split; [simpl; auto|reflexivity].
  - exists (VStr "cx2point"). split; [simpl; auto|reflexivity].
Qed.
Example C13_demo_run :
  encode_grid_indv_to_discrete [VNum (1#5); VNum 40; VNum (3#10); VStr "cx2point"] demo_space
    (snd (encode_grid_to_discrete demo_space)) = Some [VNum (1#5); VNum 40; VNum 2; VNum 1] /\
  decode_discrete_to_grid [VNum (1#5); VNum 45; VNum 2; VNum 1] demo_space
    (snd (encode_grid_to_discrete demo_space)) = Some [VNum (1#5); VNum 45; VNum (3#10); VStr "cx2point"].
Proof. split; reflexivity. Qed.

(** C14: the integer conversion used below drops the fractional part. *)
Theorem C14_int_conversion q : drops_fraction q (trunc q).
Proof. exact (trunc_spec q). Qed.
Print Assumptions C14_int_conversion.

(** C14: for every method, every draw and every exponential, the result is an integer in
    the range, and it is either the truncated value brought into the range or (sigmoid and
    minmax only) a different integer. *)
Theorem C14_in_range expf x xmin xmax lb ub alpha m rand pick z : (lb <= ub)%Q ->
  mutate_discrete expf x xmin xmax lb ub alpha m rand pick = Some z ->
  (trunc lb <= z <= trunc ub)%Z /\
  (z = Z.min (trunc ub) (Z.max (trunc lb) (trunc x)) \/ ((m = Sigmoid \/ m = MinMax) /\ z <> trunc x)).
Proof. exact (fun H E => conj (mutate_range expf x xmin xmax lb ub alpha m rand pick z H E)
                              (mutate_value expf x xmin xmax lb ub alpha m rand pick z E)). Qed.
Print Assumptions C14_in_range.

(** C14: it never fails on a coordinate inside a range of at least two integers. *)
Theorem C14_total expf x xmin xmax lb ub alpha m rand pick : m <> OtherMethod ->
  (lb <= x)%Q -> (x <= ub)%Q -> (m = NearestInt \/ (trunc lb < trunc ub)%Z) ->
  exists z, mutate_discrete expf x xmin xmax lb ub alpha m rand pick = Some z.
Proof. exact (mutate_total expf x xmin xmax lb ub alpha m rand pick). Qed.
Print Assumptions C14_total.

(** C14: when the vector is constant (sigmoid) or its |min|+max is 0 (minmax) the integer
    is always changed, to any other integer of the range. *)
Theorem C14_forced expf x xmin xmax lb ub alpha m rand :
  (m = Sigmoid /\ (xmin == xmax)%Q \/ m = MinMax /\ (qabs xmin + xmax == 0)%Q) ->
  (lb <= x)%Q -> (x <= ub)%Q -> (trunc lb < trunc ub)%Z ->
  (forall pick, exists z, mutate_discrete expf x xmin xmax lb ub alpha m rand pick = Some z /\ z <> trunc x) /\
  (forall w, (trunc lb <= w <= trunc ub)%Z -> w <> trunc x ->
     exists pick, mutate_discrete expf x xmin xmax lb ub alpha m rand pick = Some w).
Proof. exact (fun F H1 H2 H3 =>
  conj (fun pick => mutate_forced_differs expf x xmin xmax lb ub alpha m rand pick F H1 H2 H3)
       (fun w H4 H5 => mutate_forced_reaches expf x xmin xmax lb ub alpha m rand w F H1 H2 H4 H5)). Qed.
Print Assumptions C14_forced.

(** C14: a draw of at least alpha never changes the integer (unless forced). *)
Theorem C14_kept expf x xmin xmax lb ub alpha m rand pick : m <> OtherMethod ->
  (m = NearestInt \/ (alpha <= rand)%Q /\ ~ (m = Sigmoid /\ (xmin == xmax)%Q) /\ ~ (m = MinMax /\ (qabs xmin + xmax == 0)%Q)) ->
  mutate_discrete expf x xmin xmax lb ub alpha m rand pick =
    Some (Z.min (trunc ub) (Z.max (trunc lb) (trunc x))).
Proof. exact (mutate_kept expf x xmin xmax lb ub alpha m rand pick). Qed.
Print Assumptions C14_kept.

(** C14: on a range with a single integer the forced methods raise instead of returning it. *)
Theorem C14_single_value_refuted expf x xmin xmax lb ub alpha m rand pick :
  (m = Sigmoid /\ (xmin == xmax)%Q \/ m = MinMax /\ (qabs xmin + xmax == 0)%Q) ->
  trunc lb = trunc ub ->
  mutate_discrete expf x xmin xmax lb ub alpha m rand pick = None.
Proof. exact (mutate_single_fails expf x xmin xmax lb ub alpha m rand pick). Qed.
Print Assumptions C14_single_value_refuted.

(** C14 on whole position vectors (ensure_discrete of the optimizers): a vector inside the
    bounds becomes a point of the mixed space, continuous coordinates are unchanged. *)
Theorem C14_vector expf alpha m rand pick ds vec : m <> OtherMethod -> wf_dims ds ->
  (m = NearestInt \/ Forall (fun d => d_int d = true -> (d_lo d < d_hi d)%Q) ds) ->
  inside (dim_bounds ds) vec ->
  exists vec', ensure_discrete expf alpha m rand pick ds vec = Some vec' /\
    feasible ds vec' /\
    (forall i d x y, nth_error ds i = Some d -> nth_error vec i = Some x -> nth_error vec' i = Some y ->
       (d_int d = false -> y = x) /\ (m = NearestInt -> d_int d = true -> y = inject_Z (trunc x))).
Proof. exact (ensure_discrete_ok expf alpha m rand pick ds vec). Qed.
Print Assumptions C14_vector.

Example C14_demo :
  mutate_discrete (fun _ => 1%Q) (29#10) (29#10) (29#10) 1 5 (1#2) Sigmoid 0 6 = Some 4%Z /\
  mutate_discrete (fun _ => 1%Q) (29#10) 1 (29#10) 1 5 (1#2) NearestInt 0 6 = Some 2%Z /\
  ensure_discrete (fun _ => 1%Q) (1#2) MinMax (fun _ => 0%Q) (fun i => i)
     [Dim true (-2) 5; Dim false 0 1; Dim true 0 3] [(3#2); (1#2); (5#2)]
   = Some [inject_Z (-2); (1#2); inject_Z 2].
Proof. repeat split; reflexivity. Qed.
Example C14_demo_dims : wf_dims [Dim true (-2) 5; Dim false 0 1; Dim true 0 3] /\
  inside (dim_bounds [Dim true (-2) 5; Dim false 0 1; Dim true 0 3]) [(3#2); (1#2); (5#2)].
Proof.
  split.
  - repeat constructor; simpl; try (unfold Qle; simpl; lia); try discriminate.
    + exists (-2)%Z; reflexivity. + exists 5%Z; reflexivity. + exists 0%Z; reflexivity. + exists 3%Z; reflexivity.
  - repeat constructor; simpl; unfold Qle; simpl; lia.
Qed.

(** C15: on vectors of numbers the bound repair is the projection on the box: inside,
    coordinates already inside unchanged, nearest, idempotent. *)
Theorem C15_projection b vec : proper_bounds b -> length vec = length b ->
  exists v', ensure_bounds (map Num vec) b = Some (map Num v') /\
    inside b v' /\
    (forall i lo hi x, nth_error b i = Some (lo, hi) -> nth_error vec i = Some x ->
       (lo <= x)%Q -> (x <= hi)%Q -> nth_error v' i = Some x) /\
    (forall w, inside b w -> forall i x y z, nth_error vec i = Some x ->
       nth_error v' i = Some y -> nth_error w i = Some z -> (dist y x <= dist z x)%Q) /\
    ensure_bounds (map Num v') b = Some (map Num v').
Proof. exact (ensure_bounds_projection b vec). Qed.
Print Assumptions C15_projection.

(** C15: with NaN coordinates the result is shorter by the number of NaNs. *)
Theorem C15_nan_shortens b vec : proper_bounds b -> length vec = length b ->
  exists out, ensure_bounds vec b = Some out /\
    length out + length (filter (fun x => match x with NaN => true | _ => false end) vec) = length b.
Proof. exact (ensure_bounds_nan b vec). Qed.
Print Assumptions C15_nan_shortens.

(** C15: so a later coordinate takes the place of the NaN, where it is out of range. *)
Theorem C15_nan_shift_refuted : exists b vec out lo hi y,
  proper_bounds b /\ length vec = length b /\ ensure_bounds vec b = Some out /\
  nth_error b 0 = Some (lo, hi) /\ nth_error out 0 = Some (Num y) /\ (hi < y)%Q.
Proof. exact nan_shift. Qed.
Print Assumptions C15_nan_shift_refuted.

Example C15_demo : proper_bounds [(0, 1); (-3, 4); (2, 2)]%Q /\
  ensure_bounds (map Num [7; -2; 0]%Q) [(0, 1); (-3, 4); (2, 2)]%Q = Some (map Num [1; -2; 2]%Q).
Proof. split; [repeat constructor; simpl; unfold Qle; simpl; lia|reflexivity]. Qed.
