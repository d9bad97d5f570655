(** The statements about the chain in the form of the properties. *)
Require Import List ZArith Arith Lia Bool Reals Lra.
Require Import Verif.SR_Model Verif.SR_Spec Verif.SR_Proofs Verif.SR_Reports Verif.SR_Moves Verif.SR_Runs.
Import ListNotations.

Lemma chain_holds : forall fuel c fit raws D s,
  build fuel c fit raws D = Done s ->
  exists x0, linked x0 (fit 0%nat x0) (s_events s) /\
    forall k e, nth_error (s_events s) k = Some e ->
      e_new_r e = fit (S k) (e_new e) /\ e_alpha e = d_alpha (D (S k)).
Proof.
  intros fuel c fit raws D s H. apply build_chain in H. destruct H as (l & x0 & _ & _ & K).
  exists x0. split; [apply K|]. intros k e Hk. apply (ok_data _ _ _ _ _ K) in Hk. tauto.
Qed.

Lemma best_holds : forall fuel c fit raws D s x0 r0 r,
  build fuel c fit raws D = Done s -> linked x0 r0 (s_events s) -> In r (s_reports s) ->
  first_best (evaluated x0 r0 (firstn (r_step r) (s_events s))) (r_x r) (r_best r) /\
  exists e, nth_error (s_events s) (r_step r - 1) = Some e /\ r_temp r = e_temp e.
Proof.
  intros fuel c fit raws D s x0 r0 r H HL Hin. pose proof H as H'. pose proof (build_count _ _ _ _ _ _ H) as Hn.
  assert (Hr : 1 <= r_step r <= S (c_steps c)).
  { apply (build_reports _ _ _ _ _ _ H). apply in_map. exact Hin. }
  apply build_chain in H. destruct H as (l & x1 & _ & _ & K).
  pose proof (ok_link _ _ _ _ _ K) as HK.
  assert (E : x0 = x1 /\ r0 = fit 0%nat x1).
  { destruct (s_events s) as [|e es]; [discriminate|]. inversion HL; subst. inversion HK; subst. auto. }
  destruct E as (-> & ->). destruct (ok_reports _ _ _ _ _ K r Hin) as (_ & A & B). split; [exact A|].
  destruct (nth_error (s_events s) (r_step r - 1)) as [e|] eqn:E; [|apply nth_error_None in E; lia].
  exists e. split; [reflexivity|]. apply (ok_data _ _ _ _ _ K) in E. destruct E as (_ & _ & E).
  replace (S (r_step r - 1)) with (r_step r) in E by lia. congruence.
Qed.

(** The move after the last one asked for may find the best point and go unreported. *)
Lemma last_unreported : forall fuel c raws D,
  runnable fuel c D -> S (c_steps c) mod c_freq c <> 0 ->
  exists fit s e, build fuel c fit raws D = Done s /\ In e (s_events s) /\
    forall r, In r (s_reports s) -> (r_best r < e_new_r e)%R.
Proof.
  intros fuel c raws D Hr Hm. set (fit := fun (k : nat) (_ : list Z) => INR k).
  destruct (build_total fuel c fit raws D Hr) as (s & H). exists fit, s.
  pose proof (build_count _ _ _ _ _ _ H) as Hn.
  destruct (nth_error (s_events s) (c_steps c)) as [e|] eqn:E; [|apply nth_error_None in E; lia].
  exists e. split; [exact H|]. split; [eapply nth_error_In; eauto|]. intros r Hin.
  assert (Hs : r_step r <= c_steps c).
  { assert (In (r_step r) (map r_step (s_reports s))) as Hi by (apply in_map; exact Hin).
    apply (build_reports _ _ _ _ _ _ H) in Hi. destruct Hi as (A & B).
    destruct (Nat.eq_dec (r_step r) (S (c_steps c))) as [Q|Q]; [|lia]. rewrite Q in B. destruct B; [contradiction|lia]. }
  destruct (chain_holds _ _ _ _ _ _ H) as (x0 & HL & Hd).
  destruct (Hd _ _ E) as (-> & _). unfold fit.
  destruct (best_holds _ _ _ _ _ _ _ _ _ H HL Hin) as ((b & a & Heq & _ & _) & _).
  assert (Hin2 : In (r_x r, r_best r) (evaluated x0 (fit 0%nat x0) (firstn (r_step r) (s_events s)))).
  { rewrite Heq. apply in_app_iff. right. left. reflexivity. }
  unfold evaluated in Hin2. destruct Hin2 as [Hin2|Hin2].
  - injection Hin2 as _ <-. unfold fit. apply lt_0_INR. lia.
  - apply in_map_iff in Hin2. destruct Hin2 as (e' & He' & Hin'). injection He' as _ <-.
    apply In_nth_error in Hin'. destruct Hin' as (k & Hk).
    assert (Hkl : k < r_step r).
    { assert (k < length (firstn (r_step r) (s_events s))) by (apply nth_error_Some; congruence).
      rewrite firstn_length in H0. lia. }
    assert (Hk' : nth_error (s_events s) k = Some e').
    { rewrite <- (firstn_skipn (r_step r) (s_events s)). rewrite nth_error_app1; [exact Hk|].
      apply nth_error_Some. congruence. }
    destruct (Hd _ _ Hk') as (-> & _). unfold fit. apply lt_INR. lia.
Qed.
