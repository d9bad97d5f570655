(** A matrix that meets the hypotheses of C105. *)
From Coq Require Import List Arith Bool Reals Lra Lia.
From Verif Require Import CG_Model CG_Spec CG_Proofs.
Import ListNotations.
Open Scope R_scope.

(** The product with the matrix of rows 2 1 and 1 2. *)
Definition mat (x : vec) : vec := match x with [x0; x1] => [2 * x0 + x1; x0 + 2 * x1] | _ => x end.
Example mat_spd : spd 2 mat.
Proof.
  split.
  - intros [|a [|b [|]]] L; try discriminate. reflexivity.
  - intros [|a [|b [|]]] [|c [|d [|]]] L M; try discriminate. cbn. f_equal; [ring|f_equal; ring].
  - intros c [|a [|b [|]]] L; try discriminate. cbn. f_equal; [ring|f_equal; ring].
  - intros [|a [|b [|]]] [|c [|d [|]]] L M; try discriminate. cbn. ring.
  - intros [|a [|b [|]]] L N; try discriminate. cbn.
    assert (a <> 0 \/ b <> 0). { destruct (Req_dec a 0) as [->|]; auto. destruct (Req_dec b 0) as [->|]; auto. }
    assert (0 < a * a \/ 0 < b * b).
    { destruct H; [left|right]; match goal with |- 0 < ?z * ?z => destruct (Rtotal_order z 0) as [|[|]]; try contradiction end; nra. }
    assert (0 <= (a + b) * (a + b)) by apply Rle_0_sqr.
    assert (0 <= a * a) by apply Rle_0_sqr. assert (0 <= b * b) by apply Rle_0_sqr. destruct H0; nra.
Qed.
Example b_not_zero : [3; 0] <> zeros 2.
Proof. intro E. injection E. lra. Qed.
(** Three iterations are allowed, at most two are made. *)
Example demo_solves : exists x k, conjugate_gradient mat [3; 0] 3 true (1 / 10) = (Vec x, k) /\ (k <= 2)%nat /\ gap2 mat [3; 0] x < 1 / 10.
Proof.
  destruct (cg_solves 2 mat [3; 0] 3 (1 / 10) true mat_spd eq_refl b_not_zero) as [x [k [E [_ [K G]]]]]. lra. lia.
  exists x, k. split; [exact E|]. split; [lia|exact G].
Qed.
(** One iteration is not enough here. *)
Example demo_one : conjugate_gradient mat [3; 0] 1 false (1 / 10) = (Vec [3 / 2; 0], 1%nat).
Proof.
  unfold conjugate_gradient. cbn [andb loop]. destruct (Req_EM_T (dot [3; 0] (mat [3; 0])) 0) as [E|_]. cbn in E. lra.
  match goal with |- context [Rlt_dec ?a ?b] => destruct (Rlt_dec a b) as [L|_] end.
  exfalso. cbn in L. match type of L with ?a < _ => replace a with (9 / 4) in L by field end. lra.
  cbn. f_equal. f_equal. f_equal; [field|f_equal; field].
Qed.
Example demo_krylov : krylov mat [3; 0] 1 [3 / 2; 0].
Proof. exists [1 / 2]. split; [reflexivity|]. cbn. f_equal; [field|f_equal; field]. Qed.
